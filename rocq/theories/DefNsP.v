(** Proofs about DefNsM.v. *)
From Coq Require Import String Ascii List Bool Arith Lia.
From Verif Require Import Base BaseP TagM TagSpec TagP RefM RefSpec RefP IidSpec IidP DefNsM DefNsSpec.
Import ListNotations.
Open Scope string_scope.
Open Scope list_scope.

(** ** The bookkeeping changes no text *)
Lemma iid_compose_same : forall T u id ns,
  (let! (c, _) := iid_compose_ns T u id ns in Ok c) = iid_compose T u id None.
Proof.
  intros T u id ns. unfold iid_compose_ns, url_to_name, iid_compose.
  destruct (convert_ns T u KUrl KName) as [n | e]; reflexivity.
Qed.

Lemma iid_compose_cases : forall T u id ns, exists o,
  iid_compose_ns T u id ns = (let! c := iid_compose T u id None in Ok (c, o)).
Proof.
  intros T u id ns. rewrite <- (iid_compose_same T u id ns).
  destruct (iid_compose_ns T u id ns) as [[c o] | e]; cbn [bind]; [exists o | exists []]; reflexivity.
Qed.

Lemma pieces_same : forall T m l d ns,
  (let! (ps, _) := convert_pieces_ns T m d l ns in Ok ps) = convert_pieces T m None d l.
Proof.
  intros T m. induction l as [| p r IH]; intros d ns; [reflexivity |].
  cbn [convert_pieces_ns convert_pieces].
  assert (X : forall d' ns' (f : list piece -> list piece),
    (let! (ps, _) := (let! (r', n) := convert_pieces_ns T m d' r ns' in Ok (f r', n)) in Ok ps) =
    (let! r' := convert_pieces T m None d' r in Ok (f r'))).
  { intros d' ns' f. rewrite <- (IH d' ns'). destruct (convert_pieces_ns T m d' r ns') as [[r' n] | e]; reflexivity. }
  assert (Y : forall d' (u : option string) id,
    (let! (ps, _) :=
       match (match u with Some _ => u | None => d end) with
       | None => Err ConfigError
       | Some url => let! (c, ns1) := iid_compose_ns T url id ns in
                     let! (r', n) := convert_pieces_ns T m (d' url) r ns1 in Ok ((p_str p, p_phase p, of_s c) :: r', n)
       end in Ok ps) =
    match (match u with Some _ => u | None => d end) with
    | None => Err ConfigError
    | Some url => let! c := iid_compose T url id None in
                  let! r' := convert_pieces T m None (d' url) r in Ok ((p_str p, p_phase p, of_s c) :: r')
    end).
  { intros d' u id. destruct (match u with Some _ => u | None => d end) as [url |]; [| reflexivity].
    destruct (iid_compose_cases T url id ns) as (o & ->). destruct (iid_compose T url id None) as [c | e]; [| reflexivity].
    cbn [bind]. exact (X (d' url) o (fun l => (p_str p, p_phase p, of_s c) :: l)). }
  destruct (p_phase p <=? 1)%nat; [exact (X d ns (cons p)) |].
  destruct (p_phase p =? 2)%nat.
  - destruct (is_punct (p_str p)); [exact (X d ns (cons (p_str p, p_phase p, p_str p))) |].
    destruct (parse_prefixed T m (to_s (p_str p))) as [[u id] | e]; [| reflexivity]. cbn [bind].
    exact (Y (fun _ => d) u id).
  - destruct (p_phase p =? 3)%nat; [| apply IH].
    destruct (parse_prefixed T m (to_s (p_str p))) as [[u id] | e]; [| reflexivity]. cbn [bind].
    exact (Y (fun url => Some url) u id).
Qed.

Lemma iid_from_same : forall T x ns, (let! (s, _) := iid_default_from T x ns in Ok s) = iid_convert T x None.
Proof.
  intros T x ns. unfold iid_default_from, iid_convert. destruct (node_url T x) as [w | e]; [| reflexivity]. cbn [bind].
  destruct (r_text x) as [t |]; [| reflexivity]. unfold iid_pieces.
  destruct (parse_quote _) as [ps | e]; [| reflexivity]. cbn [bind].
  destruct (parse_square_bracket ps) as [ps1 | e]; [| reflexivity]. cbn [bind].
  rewrite <- (pieces_same T (r_nsmap x) (parse_element ps1) None ns).
  destruct (convert_pieces_ns T (r_nsmap x) None (parse_element ps1) ns) as [[q n] | e]; reflexivity.
Qed.

Lemma id_from_same : forall T x ns, (let! (s, _) := id_default_from T x ns in Ok s) = id_convert T x None.
Proof.
  intros T x ns. unfold id_default_from, id_convert. destruct (node_url T x) as [w | e]; [| reflexivity]. cbn [bind].
  destruct (r_text x) as [t |]; [| reflexivity]. destruct (id_parse T (r_nsmap x) t) as [[u id] | e]; [| reflexivity]. cbn [bind].
  unfold id_compose_ns, id_compose, url_to_name. destruct (u =? w); [reflexivity |].
  destruct (convert_ns T u KUrl KName) as [n | e]; reflexivity.
Qed.

(** ** What is noted *)
Definition Book (T : table) (ns : nsmap) : Prop :=
  forall k v, In (Some k, v) ns -> exists e, In e T /\ e_name e = k /\ e_url e = v.

Lemma set_new : forall k u m k' u', ~ In k (map fst m) -> (In (k', u') (ns_set k u m) <-> In (k', u') m \/ (k' = k /\ u' = u)).
Proof.
  intros k u. induction m as [| [k1 u1] r IH]; intros k' u' N; cbn [ns_set].
  - cbn. split; [intros [E | []]; injection E; auto | intros [[] | [-> ->]]; auto].
  - assert (E : ostr_eqb k k1 = false).
    { destruct (ostr_eqb k k1) eqn:E; [| reflexivity]. apply ostr_eqb_eq in E. destruct N. left. auto. }
    rewrite E. cbn [In]. rewrite IH; [tauto |]. intro I. apply N. right. exact I.
Qed.

Lemma noted : forall T e ns n ns', Unambiguous T -> Book T ns -> In e T -> url_to_name T (e_url e) ns = Ok (n, ns') ->
  n = e_name e /\ Book T ns' /\
  (forall k v, In (k, v) ns' <-> In (k, v) ns \/ (k = Some (e_name e) /\ v = e_url e /\ ~ In v (map snd ns))).
Proof.
  intros T e ns n ns' U B Ie H. unfold url_to_name in H. rewrite (convert_url_name T e U Ie) in H. cbn [bind] in H.
  injection H as <- H. split; [reflexivity |].
  destruct (mem String.eqb (e_url e) (map snd ns)) eqn:M.
  - subst ns'. split; [exact B |]. intros k v. apply (mem_In _ string_eqb_ok) in M. split; [auto |].
    intros [I | (_ & -> & N)]; [exact I | contradiction].
  - assert (N : ~ In (e_url e) (map snd ns)).
    { intro I. apply (mem_In _ string_eqb_ok) in I. congruence. }
    assert (K : ~ In (Some (e_name e)) (map fst ns)).
    { intro I. apply in_map_iff in I. destruct I as ([k v] & Ek & I). cbn [fst] in Ek. subst k.
      destruct (B _ _ I) as (e' & Ie' & En & Eu). destruct U as (UN & _).
      assert (e' = e) by (apply (NoDup_map_inj _ _ e_name T); auto). subst e'. subst v.
      apply N. apply in_map_iff. exists (Some (e_name e), e_url e). auto. }
    subst ns'. assert (Q := fun k v => set_new (Some (e_name e)) (e_url e) ns k v K). split.
    + intros k v I. apply Q in I. destruct I as [I | [E ->]]; [apply B; exact I |]. injection E as ->. exists e. auto.
    + intros k v. rewrite Q. split; [intros [I | [-> ->]]; auto | intros [I | (-> & -> & _)]; auto].
Qed.

(** What a list of URLs leaves in the dict. *)
Definition Notes (T : table) (us : list string) (ns ns' : nsmap) : Prop :=
  forall k v, In (k, v) ns' <->
    In (k, v) ns \/ (exists e, In e T /\ k = Some (e_name e) /\ v = e_url e /\ In v us /\ ~ In v (map snd ns)).

Lemma notes_nil : forall T ns, Notes T [] ns ns.
Proof. intros T ns k v. split; [auto | intros [I | (e & _ & _ & _ & [] & _)]; exact I]. Qed.

Lemma in_snd : forall (ns : nsmap) v, In v (map snd ns) <-> exists k, In (k, v) ns.
Proof.
  intros ns v. split; [intro I; apply in_map_iff in I; destruct I as ([k u] & <- & I); exists k; exact I |].
  intros (k & I). apply in_map_iff. exists (k, v). auto.
Qed.

Lemma notes_cons : forall T e us ns ns1 ns', Unambiguous T -> In e T ->
  (forall k v, In (k, v) ns1 <-> In (k, v) ns \/ (k = Some (e_name e) /\ v = e_url e /\ ~ In v (map snd ns))) ->
  Notes T us ns1 ns' -> Notes T (e_url e :: us) ns ns'.
Proof.
  intros T e us ns ns1 ns' U Ie H1 H2 k v. rewrite (H2 k v), (H1 k v).
  assert (V : In v (map snd ns1) <-> In v (map snd ns) \/ v = e_url e).
  { rewrite !in_snd. split.
    - intros (k' & I). apply H1 in I. destruct I as [I | (-> & -> & _)]; eauto.
    - intros [(k' & I) | ->]; [exists k'; apply H1; auto |].
      destruct (in_dec string_dec (e_url e) (map snd ns)) as [I | N].
      + apply in_snd in I. destruct I as (k' & I). exists k'. apply H1. auto.
      + exists (Some (e_name e)). apply H1. auto. }
  split.
  - intros [[I | (-> & -> & N)] | (e' & Ie' & -> & -> & I & N)]; [auto | |].
    + right. exists e. cbn [In]. auto 10.
    + right. exists e'. cbn [In]. split; [exact Ie' |]. split; auto. split; auto. split; auto. intro X. apply N. apply V. auto.
  - intros [I | (e' & Ie' & -> & -> & I & N)]; [auto |]. cbn [In] in I.
    destruct (string_dec (e_url e') (e_url e)) as [E | D].
    + destruct U as (_ & UU & _). assert (e' = e) by (apply (NoDup_map_inj _ _ e_url T); auto). subst e'. auto 10.
    + right. exists e'. split; auto. split; auto. split; auto. split; [destruct I; [congruence | auto] |].
      intro X. apply V in X. tauto.
Qed.

Lemma ns_is : forall T m d q r ns, convert_pieces_ns T m d (three (IS q :: r)) ns =
  let! (u, id) := parse_prefixed T m (to_s q) in
  match (match u with Some _ => u | None => d end) with
  | None => Err ConfigError
  | Some url =>
      let! (c, ns1) := iid_compose_ns T url id ns in
      let! (r', ns') := convert_pieces_ns T m (Some url) (three r) ns1 in
      Ok (same 0 [sl] :: (q, 3, of_s c) :: r', ns')
  end.
Proof.
  intros. cbn [three]. unfold same at 1 2. cbn [convert_pieces_ns p_phase p_str Nat.leb Nat.eqb].
  destruct (parse_prefixed T m (to_s q)) as [[u id]|e]; [|reflexivity]. cbn [bind].
  destruct (match u with Some _ => u | None => d end) as [url|]; [|reflexivity].
  destruct (iid_compose_ns T url id ns) as [[c ns1]|e]; [|reflexivity]. cbn [bind].
  destruct (convert_pieces_ns T m (Some url) (three r) ns1) as [[r' ns']|e]; reflexivity.
Qed.

Lemma ns_ip : forall T m d k lit c r ns, convert_pieces_ns T m d (three (IP k lit c :: r)) ns =
  if is_punct k then
    let! (r', ns') := convert_pieces_ns T m d (three r) ns in Ok (five k lit c ++ r', ns')
  else
    let! (u, id) := parse_prefixed T m (to_s k) in
    match (match u with Some _ => u | None => d end) with
    | None => Err ConfigError
    | Some url =>
        let! (cc, ns1) := iid_compose_ns T url id ns in
        let! (r', ns') := convert_pieces_ns T m d (three r) ns1 in
        Ok ([same 2 [lb]; (k, 2, of_s cc); same 2 [eqc]; (lit, 1, c); same 2 [rb]] ++ r', ns')
    end.
Proof.
  intros. cbn [three]. unfold five, same. cbn [app convert_pieces_ns p_phase p_str Nat.leb Nat.eqb is_punct].
  change (is_punct [lb]) with true. change (is_punct [eqc]) with true. change (is_punct [rb]) with true. cbv iota.
  destruct (is_punct k).
  - destruct (convert_pieces_ns T m d (three r) ns) as [[r' ns']|e]; reflexivity.
  - destruct (parse_prefixed T m (to_s k)) as [[u id]|e]; [|reflexivity]. cbn [bind].
    destruct (match u with Some _ => u | None => d end) as [url|]; [|reflexivity].
    destruct (iid_compose_ns T url id ns) as [[cc ns1]|e]; [|reflexivity]. cbn [bind].
    destruct (convert_pieces_ns T m d (three r) ns1) as [[r' ns']|e]; reflexivity.
Qed.

Lemma composed_notes : forall T u n ns c ns1, Unambiguous T -> Book T ns -> In u (map e_url T) ->
  iid_compose_ns T u n ns = Ok (c, ns1) -> Book T ns1 /\ forall us ns', Notes T us ns1 ns' -> Notes T (u :: us) ns ns'.
Proof.
  intros T u n ns c ns1 U B Iu H. apply in_map_iff in Iu. destruct Iu as (e & <- & Ie).
  unfold iid_compose_ns in H. apply bind_ok in H. destruct H as ([n1 ns2] & H & Q). injection Q as _ <-.
  destruct (noted T e ns n1 ns2 U B Ie H) as (_ & B1 & H1). split; [exact B1 |].
  intros us ns' H2. exact (notes_cons T e us ns ns2 ns' U Ie H1 H2).
Qed.

Lemma pieces_notes : forall T m, Unambiguous T -> NoDup (map fst m) ->
  forall d l s, Denotes T m d l s -> forall its ns ps ns', Forall2 Low l its -> Forall Tame l ->
  (forall u, In u (urls s) -> In u (map e_url T)) -> Book T ns ->
  convert_pieces_ns T m d (three its) ns = Ok (ps, ns') -> Notes T (urls s) ns ns'.
Proof.
  intros T m U Hm d l s HD. pose proof U as (HN & _ & _).
  assert (IdR : forall d p u n, Resolved T m d p u -> YangId n -> IdQ p n).
  { intros d0 p u n HR Hn. split; [exact Hn|]. inversion HR; auto. }
  induction HD as [d|d p n u r s HR Hn HD IH|d p n u q b v r s HR Hn HQ HI HD IH|d q b v r s HQ HI HD IH|d n r s Hn HD IH];
    intros its ns ps ns' F HT HRe B E; inversion F as [|i j l2 its2 L F2]; subst; inversion HT as [|x y T1 T2]; subst.
  - injection E as _ <-. apply notes_nil.
  - inversion L; subst. rewrite ns_is in E.
    destruct (parse_resolved T m d p n u Hm HN Hn HR) as (o & Eo & Ho). rewrite Eo in E. cbn [bind] in E. rewrite Ho in E.
    apply bind_ok in E. destruct E as ([c ns1] & E1 & E). apply bind_ok in E. destruct E as ([r' ns2] & E2 & E). injection E as _ <-.
    destruct (composed_notes T u n ns c ns1 U B (HRe u (or_introl eq_refl)) E1) as [B1 X]. apply X.
    eapply IH; eauto. intros w Iw. apply HRe. right. exact Iw.
  - inversion L as [|k0 q0 b0 c0 SL]; subst. rewrite ns_ip in E. cbn [keychars] in E. cbn [Tame] in T1. destruct T1 as [T1 _].
    rewrite punct_qname in E; [|eapply IdR; eassumption|exact T1].
    destruct (parse_resolved T m (Some d) p n u Hm HN Hn HR) as (o & Eo & Ho). rewrite Eo in E. cbn [bind] in E. rewrite Ho in E.
    apply bind_ok in E. destruct E as ([c ns1] & E1 & E). apply bind_ok in E. destruct E as ([r' ns2] & E2 & E). injection E as _ <-.
    destruct (composed_notes T u n ns c ns1 U B (HRe u (or_introl eq_refl)) E1) as [B1 X]. apply X.
    eapply IH; eauto. intros w Iw. apply HRe. right. exact Iw.
  - inversion L as [|k0 q0 b0 c0 SL]; subst. rewrite ns_ip in E. cbn [keychars is_punct] in E. cbn [Ascii.eqb Bool.eqb orb] in E.
    apply bind_ok in E. destruct E as ([r' ns2] & E2 & E). injection E as _ <-. eapply IH; eauto.
  - contradiction.
Qed.

(** ** Reading with the noted namespaces only *)
Lemma reread : forall T w d l s, Denotes T [] d l s -> Forall Canon l ->
  (forall e, In e T -> In (e_url e) (urls s) -> In (Some (e_name e), e_url e) w) -> Denotes [] w d l s.
Proof.
  intros T w d l s D. induction D as [d|d p n u r s HR Hn HD IH|d p n u q b v r s HR Hn HQ HI HD IH|d q b v r s HQ HI HD IH|d n r s Hn HD IH];
    intros C H; inversion C as [| ? ? C1 C2]; subst.
  - constructor.
  - cbn [urls flat_map app] in H. fold (urls s) in H.
    constructor; [| exact Hn | apply IH; [exact C2 | intros e Ie I; apply H; [exact Ie | right; exact I]]].
    inversion HR as [u' E | p' u' Y P]; subst; [destruct C1; reflexivity |]. constructor; [exact Y |]. left.
    destruct P as [[] | (_ & e & Ie & <- & <-)]. apply H; [exact Ie | left; reflexivity].
  - cbn [urls flat_map app] in H. fold (urls s) in H. destruct C1 as [C1 _].
    constructor; [| exact Hn | exact HQ | exact HI | apply IH; [exact C2 | intros e Ie I; apply H; [exact Ie | right; exact I]]].
    inversion HR as [u' E | p' u' Y P]; subst; [destruct C1; reflexivity |]. constructor; [exact Y |]. left.
    destruct P as [[] | (_ & e & Ie & <- & <-)]. apply H; [exact Ie | left; reflexivity].
  - constructor; auto.
  - constructor; auto.
Qed.

Lemma read_url : forall w d l s, Denotes [] w d l s -> Forall Canon l -> forall u, In u (urls s) -> exists p, In (Some p, u) w.
Proof.
  intros w d l s D. induction D as [d|d p n u r s HR Hn HD IH|d p n u q b v r s HR Hn HQ HI HD IH|d q b v r s HQ HI HD IH|d n r s Hn HD IH];
    intros C x I; inversion C as [| ? ? C1 C2]; subst.
  - destruct I.
  - cbn [urls flat_map app] in I. fold (urls s) in I. destruct I as [<- | I]; [| auto].
    inversion HR as [u' E | p' u' Y P]; subst; [destruct C1; reflexivity |].
    destruct P as [P | (_ & e & [] & _)]. exists p'. exact P.
  - cbn [urls flat_map app] in I. fold (urls s) in I. destruct C1 as [C1 _]. destruct I as [<- | I]; [| auto].
    inversion HR as [u' E | p' u' Y P]; subst; [destruct C1; reflexivity |].
    destruct P as [P | (_ & e & [] & _)]. exists p'. exact P.
  - apply IH; auto.
  - apply IH; auto.
Qed.

Lemma notes_declares : forall T own us ns, Notes T us [(None, own)] ns -> Declares T own us ns.
Proof.
  intros T own us ns H k v. rewrite (H k v). cbn [In map snd]. split.
  - intros [[E | []] | (e & Ie & -> & -> & I & N)]; [injection E; auto |]. right. exists e. intuition congruence.
  - intros [[-> ->] | (e & Ie & -> & -> & I & N)]; [auto |]. right. exists e. intuition congruence.
Qed.

(** The pieces that the text is cut into, from the proofs of C64. *)
Lemma cut_up : forall T m d l s, Denotes T m d l s -> Forall Tame l -> l <> [] ->
  exists its ps ps2, Forall2 Low l its /\ parse_quote [(show_items l, 0, show_items l)] = Ok ps /\
    parse_square_bracket ps = Ok ps2 /\ parse_element ps2 = three its.
Proof.
  intros T m d l s HD HT HN. pose proof (Denotes_shape _ _ _ _ _ HD) as HS.
  destruct (spelled_segs l [] HT HS) as [SP PE]; [intros []|].
  assert (Hsp := spell_segs l [] HT). cbn [app] in Hsp.
  destruct (quotes_found _ _ SP PE) as (ps & Eps & HP).
  { rewrite Hsp. unfold show_items. destruct l as [|[p n|k q b|n] l]; [congruence|discriminate|discriminate|discriminate]. }
  rewrite Hsp in Eps. destruct (pieces_low l [] ps HT HP) as (its & F & ->).
  destruct (phases its (low_ok l its F HT HS)) as (ps2 & E2 & E3). exists its. eexists. exists ps2. eauto.
Qed.

Theorem iid_ns : forall T w t m l s, Unambiguous T -> Prefixes T None -> In w (map e_url T) -> Name t -> Nsmap m ->
  Denotes T m None l s -> Forall Tame l -> l <> [] -> (forall u, In u (urls s) -> In u (map e_url T)) ->
  exists ns y, iid_default_ns T (RNode (etree w t) m (Some (to_s (show_items l)))) = Ok ns /\
    iid_convert T (RNode (etree w t) m (Some (to_s (show_items l)))) None = Ok y /\
    Declares T w (urls s) ns /\ ((exists l', to_s (show_items l') = y /\ Denotes [] ns None l' s) <-> ~ In w (urls s)).
Proof.
  intros T w t m l s U HP Hw Ht HM HD HT HN HR.
  destruct (iid_kept T w t m None l s U Hw Ht HM HP HD HT HN HR) as (l' & E & D' & C). cbn [to_map] in D'.
  assert (X := iid_from_same T (RNode (etree w t) m (Some (to_s (show_items l)))) [(None, w)]). rewrite E in X.
  apply bind_ok in X. destruct X as ([c ns] & X & Q). injection Q as ->.
  exists ns, (to_s (show_items l')). unfold iid_default_ns. rewrite node_url_ok by assumption. cbn [bind]. rewrite X. cbn [bind].
  split; [reflexivity |]. split; [exact E |].
  assert (DC : Declares T w (urls s) ns).
  { apply notes_declares. unfold iid_default_from in X. rewrite node_url_ok in X by assumption. cbn [bind r_text r_nsmap] in X.
    destruct (cut_up T m None l s HD HT HN) as (its & ps0 & ps1 & F & X0 & X1 & X2).
    rewrite of_to, X0 in X. cbn [bind] in X. rewrite X1 in X. cbn [bind] in X. rewrite X2 in X.
    apply bind_ok in X. destruct X as ([ps2 ns2] & X3 & X). injection X as _ <-.
    apply (pieces_notes T m U (proj1 HM) None l s HD its [(None, w)] ps2 ns2 F HT HR); [| exact X3].
    intros k v [E4 | []]. discriminate E4. }
  split; [exact DC |]. split.
  - intros (l2 & E2 & D) I. apply (f_equal of_s) in E2. rewrite !of_to in E2.
    apply one_reading in E2; [|eapply Denotes_shape; eassumption|eapply Denotes_shape; eassumption]. subst l2.
    destruct (read_url ns None l' s D C w I) as (p & J). apply DC in J.
    destruct J as [[? _] | (e & _ & _ & _ & _ & N)]; [discriminate | congruence].
  - intro N. exists l'. split; [reflexivity |]. apply (reread T ns None l' s D' C). intros e Ie I. apply DC. right. exists e. intuition congruence.
Qed.

Theorem id_ns : forall T w t m x u n, Unambiguous T -> In w (map e_url T) -> Name t -> Nsmap m ->
  In u (map e_url T) -> Refers T m x u n ->
  exists ns y, id_default_ns T (RNode (etree w t) m (Some x)) = Ok ns /\
    id_convert T (RNode (etree w t) m (Some x)) None = Ok y /\
    Declares T w [u] ns /\ Refers [] ns y u n.
Proof.
  intros T w t m x u n U Hw Ht HM Hu HR. assert (W := Refers_Ident _ _ _ _ _ HR).
  assert (E := id_default_ok T w t m x u n U Hw Ht HM HR). unfold id_default in E.
  destruct (compose_ok T w u n U Hu) as (y & Ey). rewrite Ey in E.
  unfold id_default_ns. rewrite node_url_ok by assumption. cbn [bind].
  assert (X := id_from_same T (RNode (etree w t) m (Some x)) [(None, w)]). rewrite E in X.
  apply bind_ok in X. destruct X as ([c ns] & X & Q). injection Q as ->. rewrite X. cbn [bind].
  exists ns, y. split; [reflexivity |]. split; [exact E |].
  unfold id_default_from in X. rewrite node_url_ok in X by assumption. cbn [bind r_text r_nsmap] in X.
  rewrite (Refers_parse T m x u n) in X; [| destruct HM; auto | destruct U; auto | auto]. cbn [bind] in X.
  unfold id_compose_ns in X. destruct (String.eqb_spec u w) as [-> | NE].
  - injection X as <- <-. split.
    + intros k v. cbn [In]. split; [intros [Q | []]; injection Q; auto |].
      intros [[-> ->] | (e & _ & _ & _ & [<- | []] & Q)]; [auto | congruence].
    + apply RBare; [exact W | left; reflexivity].
  - apply bind_ok in X. destruct X as ([n1 ns1] & X & Q). injection Q as <- <-.
    apply in_map_iff in Hu. destruct Hu as (e & <- & Ie).
    destruct (noted T e [(None, w)] n1 ns1 U) as (-> & _ & H1); [intros k v [Q | []]; discriminate Q | exact Ie | exact X |].
    split.
    + apply notes_declares. eapply notes_cons; [exact U | exact Ie | exact H1 | apply notes_nil].
    + apply RPrefix; [destruct U as (_ & _ & F); rewrite Forall_forall in F; apply F; exact Ie | exact W |].
      apply H1. right. cbn [map snd In]. intuition congruence.
Qed.
