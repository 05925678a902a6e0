(** Example data and small lemmas for the properties of tags and references. *)
From Coq Require Import String Ascii List Bool Arith Lia.
From Verif Require Import Base BaseP TagM TagSpec TagP RefM RefSpec RefP.
Import ListNotations.
Open Scope string_scope.
Open Scope list_scope.

(** ** Tags *)
Definition ex_if := Entry "openconfig-interfaces" "oc-if" "http://openconfig.net/yang/interfaces".
Definition ex_ip := Entry "openconfig-if-ip" "oc-ip" "http://openconfig.net/yang/interfaces/ip".
Definition ex_table : table := [ex_if; ex_ip; Entry "ietf-netconf" "nc" nc_url].

Ltac not_in := let H := fresh in intro H; simpl in H; repeat (destruct H as [H|H]; [discriminate H|]); exact H.
Ltac word := split; [discriminate | not_in].

Lemma ex_sole : forall k e, In e ex_table -> Sole ex_table k e.
Proof.
  intros k e H. apply sole_of_nodup; [|exact H].
  destruct k; simpl; repeat (apply NoDup_cons; [not_in|]); apply NoDup_nil.
Qed.

Lemma ex_hyps :
  Sole ex_table KUrl ex_ip /\ Sole ex_table KPrefix ex_ip /\ Sole ex_table KName ex_ip /\
  Word (e_url ex_ip) /\ Word (e_prefix ex_ip) /\ Word (e_name ex_ip) /\ Name "ipv4" /\
  (forall e0, Some ex_if = Some e0 -> In e0 ex_table).
Proof.
  assert (I : In ex_ip ex_table) by (right; left; reflexivity).
  repeat (split; [first [exact (ex_sole _ _ I) | word | split; [word | split; not_in]]|]).
  intros e0 H. injection H as <-. left. reflexivity.
Qed.

Lemma ex_tags :
  convert_tag ex_table (e_url ex_if) (etree (e_url ex_ip) "ipv4") LXML_ETREE XPATH
    = Ok (e_url ex_ip, "oc-ip:ipv4") /\
  convert_tag ex_table "oc-if" "oc-ip:ipv4" XPATH LXML_ETREE
    = Ok ("oc-ip", etree (e_url ex_ip) "ipv4") /\
  convert_tag ex_table (e_url ex_ip) (etree (e_url ex_ip) "ipv4") LXML_ETREE JSON_NAME
    = Ok (e_url ex_ip, "ipv4").
Proof. repeat split; vm_compute; reflexivity. Qed.

(** A module whose prefix is that of a built-in namespace. *)
Definition bad_table : table := [Entry "network-common" "nc" "urn:example:common"].
Lemma special_prefix : exists T u t s u',
  convert_tag T "" (etree u t) LXML_ETREE XPATH = Ok (u, s) /\
  convert_tag T "" s XPATH LXML_ETREE = Ok ("nc", etree u' t) /\ u' <> u.
Proof.
  exists bad_table, nc_url, "config", "nc:config", "urn:example:common".
  split; [vm_compute; reflexivity|]. split; [vm_compute; reflexivity|]. discriminate.
Qed.

Lemma ex_keeps : KeepsSpecials ex_table.
Proof.
  intros e s He Hs. simpl in He, Hs.
  destruct He as [<-|[<-|[<-|[]]]]; destruct Hs as [<-|[<-|[<-|[<-|[]]]]]; simpl; intro H; try discriminate H; reflexivity.
Qed.

Lemma ex_ns :
  convert_ns ex_table "oc-ip" KPrefix KName = Ok "openconfig-if-ip" /\
  convert_ns (ex_ip :: ex_table) "oc-ip" KPrefix KName = Err ValueError.
Proof. split; vm_compute; reflexivity. Qed.

Lemma ex_distinct : PrefixesDistinct ex_table /\ NoNumbered ex_table.
Proof.
  split.
  - intros a b Ha Hb. simpl in Ha, Hb.
    destruct Ha as [<-|[<-|[<-|[<-|[<-|[<-|[<-|[]]]]]]]];
      destruct Hb as [<-|[<-|[<-|[<-|[<-|[<-|[<-|[]]]]]]]]; simpl; intro H; try discriminate H; reflexivity.
  - intros e He (d & Hd & _). simpl in He. destruct He as [<-|[<-|[<-|[]]]]; discriminate Hd.
Qed.

Definition ex_urls := [nc_url; e_url ex_if; "urn:other:1"; "urn:other:2"].
Lemma ex_get_ns : get_ns ex_table ex_urls =
  [("nc", nc_url); ("oc-if", e_url ex_if); ("ns00", "urn:other:1"); ("ns01", "urn:other:2")] /\ NoDup ex_urls.
Proof. split; [vm_compute; reflexivity|]. unfold ex_urls. repeat (apply NoDup_cons; [not_in|]). apply NoDup_nil. Qed.

Lemma url_lost : forall T urls u, (forall p, ~ In (p, u) (get_ns T urls)) -> ~ In u (map snd (get_ns T urls)).
Proof.
  intros T urls u H Hin. apply in_map_iff in Hin. destruct Hin as ((p, v) & E & Hin). simpl in E. subst v.
  exact (H p Hin).
Qed.

Lemma builtin_lost : exists T urls, In nc_url urls /\ ~ In nc_url (map snd (get_ns T urls)).
Proof.
  exists bad_table, [nc_url; "urn:example:common"]. split; [left; reflexivity|].
  vm_compute. intros [H|[]]. discriminate H.
Qed.

Definition two_acl : table := [Entry "vendor-acl" "acl" "urn:vendor:acl"; Entry "std-acl" "acl" "urn:std:acl"].
Lemma same_prefix_lost : exists T urls u, In u urls /\ ~ In u (map snd (get_ns T urls)).
Proof.
  exists two_acl, ["urn:vendor:acl"; "urn:std:acl"], "urn:vendor:acl". split; [left; reflexivity|].
  vm_compute. intros [H|[]]. discriminate H.
Qed.

Definition numbered : table := [Entry "net-services" "ns00" "urn:net:services"].
Lemma numbered_lost : exists T urls u, In u urls /\ (exists e, In e T /\ e_url e = u) /\
  ~ In u (map snd (get_ns T urls)).
Proof.
  exists numbered, ["urn:net:services"; "urn:other"], "urn:net:services". split; [left; reflexivity|]. split; [eexists; split; [left; reflexivity | reflexivity]|].
  vm_compute. intros [H|[]]. discriminate H.
Qed.

(** ** References *)
Definition ex_idt := Entry "iana-if-type" "ianaift" "urn:iana:if-type".
Definition ref_table : table := [ex_if; ex_ip; ex_idt].
Lemma ref_unambiguous : Unambiguous ref_table.
Proof.
  split; [|split].
  - simpl. repeat (apply NoDup_cons; [not_in|]). apply NoDup_nil.
  - simpl. repeat (apply NoDup_cons; [not_in|]). apply NoDup_nil.
  - repeat (apply Forall_cons; [split; word|]). apply Forall_nil.
Qed.

Definition map1 : nsmap := [(None, e_url ex_if); (Some "ianaift", e_url ex_idt)].
Definition map2 : nsmap := [(Some "x", e_url ex_if); (Some "t", e_url ex_idt)].
Lemma ex_nsmaps : Nsmap map1 /\ Nsmap map2.
Proof.
  split; (split; [simpl; repeat (apply NoDup_cons; [not_in|]); apply NoDup_nil|]);
    intros p u H; simpl in H; repeat (destruct H as [H|H]; [first [discriminate H | injection H as <- <-; word]|]);
    destruct H.
Qed.

Lemma ex_refers :
  Refers ref_table map1 "ianaift:ethernetCsmacd" (e_url ex_idt) "ethernetCsmacd" /\
  Refers ref_table map2 "t:ethernetCsmacd" (e_url ex_idt) "ethernetCsmacd" /\
  Refers ref_table map2 "iana-if-type:ethernetCsmacd" (e_url ex_idt) "ethernetCsmacd" /\
  Refers ref_table map1 "ethernetCsmacd" (e_url ex_if) "ethernetCsmacd".
Proof.
  assert (W : Ident "ethernetCsmacd") by (split; [word | not_in]).
  repeat split.
  - apply (RPrefix ref_table map1 "ianaift"); [word | exact W | right; left; reflexivity].
  - apply (RPrefix ref_table map2 "t"); [word | exact W | right; left; reflexivity].
  - apply (RModule ref_table map2 ex_idt); [word | exact W | not_in | right; right; left; reflexivity].
  - apply RBare; [exact W | left; reflexivity].
Qed.

Definition leaf (m : nsmap) (x : string) : rnode := RNode (etree (e_url ex_if) "type") m (Some x).
Lemma ex_same :
  ref_same ref_table DIdentity (leaf map1 "ianaift:ethernetCsmacd") (leaf map2 "t:ethernetCsmacd") = Ok true /\
  ref_same ref_table DIdentity (leaf map1 "ianaift:ethernetCsmacd") (leaf map1 "ethernetCsmacd") = Ok false /\
  ref_merge ref_table DIdentity (leaf map1 "ianaift:ethernetCsmacd") (leaf map2 "t:other") = Ok (Some "t:ethernetCsmacd").
Proof. repeat split; vm_compute; reflexivity. Qed.

(** A list keyed by an identityref leaf. *)
Lemma keys_raw : exists a b,
  peer_keys ref_table [(DIdentity, a)] [(DIdentity, b)] = Ok true /\
  exists ka kb, pair_key ref_table [a] = Ok ka /\ pair_key ref_table [b] = Ok kb /\ ka <> kb.
Proof.
  exists (leaf map1 "ianaift:ethernetCsmacd"), (leaf map2 "t:ethernetCsmacd").
  split; [vm_compute; reflexivity|]. do 2 eexists. split; [vm_compute; reflexivity|].
  split; [vm_compute; reflexivity|]. discriminate.
Qed.

Definition iid_text := "/oc-if:interfaces/interface[name=""a'b""]/oc-ip:ipv4[oc-if:k='1']".
Definition iid_map : nsmap := [(Some "oc-if", e_url ex_if); (Some "oc-ip", e_url ex_ip)].
Lemma ex_iid : exists ps, iid_pieces ref_table iid_map None iid_text = Ok ps /\ length ps = 16 /\
  to_s (flat_map p_conv ps) =
  "/openconfig-interfaces:interfaces/openconfig-interfaces:interface[openconfig-interfaces:name='a''b']/openconfig-if-ip:ipv4[openconfig-interfaces:k='1']".
Proof. eexists. split; [vm_compute; reflexivity|]. split; vm_compute; reflexivity. Qed.

(** One literal with doubled quotes inside, and one that ends in a doubled quote. *)
Definition seg_mid := Segment (of_s "/a[b") apos (of_s "x''y").
Definition seg_end := Segment (of_s "/a[b") apos (of_s "xy''").
Lemma ex_spelled : Spelled [seg_mid] (of_s "]") /\ PlainEnd seg_mid /\ Spelled [seg_end] (of_s "]") /\ ~ PlainEnd seg_end /\
  ~ In (g_quote seg_end) (of_s "]").
Proof.
  split; [|split; [|split; [|split]]].
  - simpl. split; [not_in|]. split; [left; reflexivity|]. split; [|split; [discriminate | not_in]].
    eexists. apply IChar; [discriminate|]. apply IPair. apply IChar; [discriminate|]. apply INil.
  - intros b H. assert (E : g_body seg_mid = of_s "x''" ++ ["y"%char]) by reflexivity. rewrite E in H.
    apply app_inj_tail in H. destruct H as [_ H]. discriminate H.
  - simpl. split; [not_in|]. split; [left; reflexivity|]. split; [|split; [discriminate | not_in]].
    eexists. apply IChar; [discriminate|]. apply IChar; [discriminate|]. apply IPair. apply INil.
  - intro H. apply (H (of_s "xy'")). reflexivity.
  - not_in.
Qed.

(** A value that refers to nothing is refused. *)
Lemma unknown_parse : forall T m x, Meaningless T m x -> id_parse T m x = Err ConfigError.
Proof.
  intros T m x H. unfold id_parse, parse_prefixed. destruct H as [p n Hp Hn Hm HT | n Hn Hm].
  - rewrite Ident_pref by assumption. rewrite (assoc_none m (Some p) Hm). unfold name_to_url.
    destruct (find (fun e => String.eqb (e_name e) p) (rev T)) as [e|] eqn:F; [|reflexivity].
    exfalso. apply find_some in F. destruct F as [F1 F2]. apply String.eqb_eq in F2. apply HT. rewrite <- F2.
    apply in_map. apply in_rev. exact F1.
  - rewrite Ident_bare by assumption. cbn [bind]. rewrite (assoc_none m None Hm). reflexivity.
Qed.

Lemma unknown_refused : forall T w t m x, Unambiguous T -> In w (map e_url T) -> Name t -> Meaningless T m x ->
  (forall to, ref_merge T DIdentity (RNode (etree w t) m (Some x)) to = Err ConfigError) /\
  (forall y, ref_same T DIdentity (RNode (etree w t) m (Some x)) y = Err ConfigError) /\
  (forall m' y u n, Nsmap m' -> In u (map e_url T) -> Refers T m' y u n ->
     ref_same T DIdentity (RNode (etree w t) m' (Some y)) (RNode (etree w t) m (Some x)) = Err ConfigError).
Proof.
  intros T w t m x HT Hw Ht Hx.
  assert (HC : forall o, id_convert T (RNode (etree w t) m (Some x)) o = Err ConfigError).
  { intro o. unfold id_convert. rewrite (node_url_ok T w t m (Some x) HT Hw Ht). cbn [bind r_text r_nsmap].
    rewrite (unknown_parse T m x Hx). reflexivity. }
  split; [|split].
  - intro to. unfold ref_merge. cbn [r_text]. rewrite HC. reflexivity.
  - intro y. unfold ref_same, ref_text. cbn [r_text]. rewrite HC. reflexivity.
  - intros m' y u n Hm' Hu HR. unfold ref_same, ref_text. cbn [r_text]. rewrite HC.
    unfold id_convert. rewrite (node_url_ok T w t m' (Some y) HT Hw Ht). cbn [bind r_text r_nsmap].
    rewrite (Refers_parse T m' y u n (proj1 Hm') (proj1 HT) HR). cbn [bind].
    apply in_map_iff in Hu. destruct Hu as (e & <- & He). unfold id_compose.
    destruct (String.eqb (e_url e) w); [reflexivity|]. rewrite (convert_url_name T e HT He). reflexivity.
Qed.

Lemma ex_meaningless : Meaningless ref_table map1 "nosuch:ethernetCsmacd".
Proof.
  apply (MPrefix ref_table map1 "nosuch" "ethernetCsmacd").
  - split; [discriminate|]. vm_compute. intuition discriminate.
  - split; [split; [discriminate|]|]; vm_compute; intuition discriminate.
  - vm_compute. intuition discriminate.
  - vm_compute. intuition discriminate.
Qed.

(** ** Nodes that are no references *)
Lemma same_plain : forall T x y, (exists b, ref_same T DPlain x y = Ok b /\ (b = true <-> r_text x = r_text y)) /\ ref_same T DContainer x y = Ok true.
Proof.
  intros T [t1 m1 a] [t2 m2 b]. split; [| destruct a, b; reflexivity]. exists (ostr_eqb a b).
  split; [destruct a, b; reflexivity |]. cbn [r_text]. apply ostr_eqb_ok.
Qed.

Lemma peers : forall T a b P, Unambiguous T -> KeysSame T a b P -> exists r, peer_keys T a b = Ok r /\ (r = true <-> P).
Proof.
  intros T a b P U H. induction H as [| w t m1 m2 x y u n v k a b P W Nt N1 N2 Iu Iv R1 R2 H (r & E & IH) | x y a b P H (r & E & IH)]; cbn [peer_keys].
  - exists true. tauto.
  - destruct (identity_same T w t m1 m2 x y u n v k U W Nt N1 N2 Iu Iv R1 R2) as (s & -> & S). cbn [bind]. destruct s.
    + exists r. split; auto. tauto.
    + exists false. split; auto. split; [discriminate |]. intros [X _]. apply S. exact X.
  - destruct (proj1 (same_plain T x y)) as (s & -> & S). cbn [bind]. destruct s.
    + exists r. split; auto. tauto.
    + exists false. split; auto. split; [discriminate |]. intros [X _]. apply S. exact X.
Qed.
