(** C37, C38, C39: tag notations and namespace tables. *)
From Coq Require Import String Ascii List Bool Arith.
From Verif Require Import Base TagM TagSpec TagSplitSpec TagP TagSplitP RefPropsP.
Import ListNotations.
Open Scope string_scope.
Open Scope list_scope.

(** ** C37
    Full statement: for all tables. It is false if a module takes the prefix of a
    built-in namespace, see below. Proved: from URL notation to any notation with a
    colon and back, with any default namespace, for a namespace that the table names
    once. *)
Theorem C37_there_and_back_partial : forall T e d kd od t,
  Sole T KUrl e -> Sole T kd e -> Word (e_url e) -> Word (field kd e) -> Name t ->
  (forall e0, d = Some e0 -> In e0 T) ->
  exists s,
    convert_tag T (dflt d KUrl) (etree (e_url e) t) LXML_ETREE (kd, od, Colon) = Ok (e_url e, s) /\
    convert_tag T (dflt d kd) s (kd, od, Colon) LXML_ETREE = Ok (field kd e, etree (e_url e) t).
Proof. exact there_and_back. Qed.
Print Assumptions C37_there_and_back_partial.

(** From the short notation to URL notation and back. *)
Theorem C37_back_and_there_partial : forall T e d kd od t,
  Sole T KUrl e -> Sole T kd e -> Word (e_url e) -> Word (field kd e) -> Name t ->
  (forall e0, d = Some e0 -> In e0 T) ->
  convert_tag T (dflt d kd) (short od (dflt d kd) (field kd e) t) (kd, od, Colon) LXML_ETREE
    = Ok (field kd e, etree (e_url e) t) /\
  convert_tag T (dflt d KUrl) (etree (e_url e) t) LXML_ETREE (kd, od, Colon)
    = Ok (e_url e, short od (dflt d kd) (field kd e) t).
Proof. exact back_and_there. Qed.
Print Assumptions C37_back_and_there_partial.

(** In any table, ambiguous or not: if both conversions succeed the tag comes back,
    provided no module takes the prefix of a built-in namespace. *)
Theorem C37_both_succeed_partial : forall T kd od u t du dd ns1 s ns2 tag,
  KeepsSpecials T -> Forall (fun e => Word (field kd e)) T -> kd <> KUrl ->
  Word u -> Name t ->
  (du = "" \/ convert_part T KUrl kd du = Ok dd) ->
  convert_tag T du (etree u t) LXML_ETREE (kd, od, Colon) = Ok (ns1, s) ->
  convert_tag T dd s (kd, od, Colon) LXML_ETREE = Ok (ns2, tag) ->
  tag = etree u t.
Proof. exact both_succeed. Qed.
Print Assumptions C37_both_succeed_partial.

Example C37_case :
  (Sole ex_table KUrl ex_ip /\ Sole ex_table KPrefix ex_ip /\ Sole ex_table KName ex_ip /\
   Word (e_url ex_ip) /\ Word (e_prefix ex_ip) /\ Word (e_name ex_ip) /\ Name "ipv4" /\
   (forall e0, Some ex_if = Some e0 -> In e0 ex_table)) /\ KeepsSpecials ex_table.
Proof. exact (conj ex_hyps ex_keeps). Qed.
Example C37_case_values :
  convert_tag ex_table (e_url ex_if) (etree (e_url ex_ip) "ipv4") LXML_ETREE XPATH
    = Ok (e_url ex_ip, "oc-ip:ipv4") /\
  convert_tag ex_table "oc-if" "oc-ip:ipv4" XPATH LXML_ETREE
    = Ok ("oc-ip", etree (e_url ex_ip) "ipv4") /\
  convert_tag ex_table (e_url ex_ip) (etree (e_url ex_ip) "ipv4") LXML_ETREE JSON_NAME
    = Ok (e_url ex_ip, "ipv4").
Proof. exact ex_tags. Qed.

(** Which two parts a tag has, for any text: the rightmost split of its line, and none if the
    line has no such split. A namespace that is not known is an exception for [convert_tag]. *)
Theorem C37_split : forall st s,
  (exists ns name, Splits st s ns name /\ split_tag st s = (ns, name) /\
     forall T k o, split_known T (k, o, st) s = if in_dec string_dec ns (possible_part1 T k) then Ok (ns, name) else Err ValueError) \/
  ((forall ns name, ~ Splits st s ns name) /\ split_tag st s = ("", s) /\ forall T k o, split_known T (k, o, st) s = Ok ("", s)).
Proof. exact split_exact. Qed.
Print Assumptions C37_split.

Example C37_split_case : Splits Brace "{u}b}" "u" "b}" /\ Splits Colon "a:b:c" "a:b" "c" /\
  (forall ns name, ~ Splits Colon "a:" ns name) /\ (forall ns name, ~ Splits Brace "{u}" ns name).
Proof.
  split; [apply re_style_iff; vm_compute; reflexivity |]. split; [apply re_style_iff; vm_compute; reflexivity |].
  split; intros ns name; apply re_style_no; vm_compute; reflexivity.
Qed.

(** How a tag is spelled in the notations of the package: with the name of the module in
    JSON_NAME, with the prefix in the others. *)
Theorem C37_notations : forall T e t, Sole T KUrl e -> Sole T KName e -> Sole T KPrefix e ->
  Word (e_url e) -> Word (e_name e) -> Word (e_prefix e) -> Name t ->
  let from := convert_tag T "" (etree (e_url e) t) LXML_ETREE in
  from JSON_NAME = Ok (e_url e, (e_name e ++ ":" ++ t)%string) /\
  from JSON_PREFIX = Ok (e_url e, (e_prefix e ++ ":" ++ t)%string) /\
  from YTOOL = Ok (e_url e, (e_prefix e ++ ":" ++ t)%string) /\
  from XPATH = Ok (e_url e, (e_prefix e ++ ":" ++ t)%string) /\
  from LXML_XPATH = Ok (e_url e, (e_prefix e ++ ":" ++ t)%string).
Proof. exact notations. Qed.
Print Assumptions C37_notations.

(** The hypotheses hold for [ex_ip], see [C37_case]. *)
Example C37_notations_case :
  convert_tag ex_table "" (etree (e_url ex_ip) "ipv4") LXML_ETREE JSON_NAME = Ok (e_url ex_ip, "openconfig-if-ip:ipv4").
Proof. vm_compute; reflexivity. Qed.

(** The same for the namespaces that no module has: they have the prefixes of RFC 6241 and of
    the package, unless a module claims them. *)
Theorem C37_built_in : forall T p u t, In (p, u) built_in -> (forall e, In e T -> e_url e <> u) -> Name t ->
  (forall o, convert_tag T "" (etree u t) LXML_ETREE (KPrefix, o, Colon) = Ok (u, (p ++ ":" ++ t)%string)) /\
  get_prefix T u = Some p.
Proof. exact built_in_notations. Qed.
Print Assumptions C37_built_in.

Example C37_built_in_case : In ("yang", "urn:ietf:params:xml:ns:yang:1") built_in /\
  (forall e, In e ex_table -> e_url e <> "urn:ietf:params:xml:ns:yang:1") /\ Name "insert".
Proof.
  split; [right; left; reflexivity |]. split; [| split; [word | split; not_in]].
  intros e H. cbn in H. repeat (destruct H as [<-|H]; [discriminate |]). destruct H.
Qed.

(** A module with the prefix nc: the tag of a built-in namespace comes back in the
    namespace of that module. *)
Theorem C37_builtin_refuted : exists T u t s u',
  convert_tag T "" (etree u t) LXML_ETREE XPATH = Ok (u, s) /\
  convert_tag T "" s XPATH LXML_ETREE = Ok ("nc", etree u' t) /\ u' <> u.
Proof. exact special_prefix. Qed.
Print Assumptions C37_builtin_refuted.

(** ** C38
    convert_ns answers exactly if one entry matches, with a field of that entry. *)
Theorem C38_exact : forall T ns src dst v,
  convert_ns T ns src dst = Ok v <->
  exists e, Sole T src e /\ field src e = ns /\ field dst e = v.
Proof. exact convert_ns_spec. Qed.
Print Assumptions C38_exact.

Theorem C38_refuses : forall T ns src dst,
  (~ exists e, Sole T src e /\ field src e = ns) <-> convert_ns T ns src dst = Err ValueError.
Proof. exact convert_ns_err. Qed.
Print Assumptions C38_refuses.

Example C38_case :
  convert_ns ex_table "oc-ip" KPrefix KName = Ok "openconfig-if-ip" /\
  convert_ns (ex_ip :: ex_table) "oc-ip" KPrefix KName = Err ValueError.
Proof. exact ex_ns. Qed.

(** ** C39
    Full statement: for all tables. It is false, see below. Proved where prefixes
    identify namespaces and no module prefix looks like ns00: every URL gets its own
    prefix, and the one of its module if there is one. The order in which Python
    iterates over the set of URLs does not matter. *)
Theorem C39_own_prefix_partial : forall T urls, PrefixesDistinct T -> NoNumbered T -> NoDup urls ->
  map snd (get_ns T urls) = urls /\ NoDup (map fst (get_ns T urls)) /\
  forall p u, In (p, u) (get_ns T urls) ->
    forall e, In e (T ++ specials) -> e_url e = u ->
      exists e', In e' (T ++ specials) /\ e_url e' = u /\ e_prefix e' = p.
Proof. exact get_ns_exact. Qed.
Print Assumptions C39_own_prefix_partial.

Example C39_case : (PrefixesDistinct ex_table /\ NoNumbered ex_table) /\
  get_ns ex_table ex_urls =
  [("nc", nc_url); ("oc-if", e_url ex_if); ("ns00", "urn:other:1"); ("ns01", "urn:other:2")] /\ NoDup ex_urls.
Proof. exact (conj ex_distinct ex_get_ns). Qed.

(** Two modules with the same prefix: one namespace is missing. *)
Theorem C39_same_prefix_refuted : exists T urls u, In u urls /\ ~ In u (map snd (get_ns T urls)).
Proof. exact same_prefix_lost. Qed.
Print Assumptions C39_same_prefix_refuted.

(** A module with the prefix nc: the NETCONF namespace of the reply is missing. *)
Theorem C39_builtin_refuted : exists T urls, In nc_url urls /\ ~ In nc_url (map snd (get_ns T urls)).
Proof. exact builtin_lost. Qed.
Print Assumptions C39_builtin_refuted.

(** A module with the prefix ns00 and a namespace that no module claims. *)
Theorem C39_numbered_refuted : exists T urls u, In u urls /\ (exists e, In e T /\ e_url e = u) /\
  ~ In u (map snd (get_ns T urls)).
Proof. exact numbered_lost. Qed.
Print Assumptions C39_numbered_refuted.
