(** C76: names of keys in the key attribute of user-ordered list entries. *)
From Coq Require Import String Ascii List Bool Arith.
From Verif Require Import Base XmlM CalcM NetconfM DeltaSpec TagM TagSpec DepictSpec RefM KeyNsM KeyNsSpec KeyNsP KeyNsPropsP.
Import ListNotations.
Open Scope string_scope.
Open Scope list_scope.

(** ** C76
    The key attribute written for the entry before finds, with the prefixes of the entry
    that carries it, the first entry with those keys; partial: only if the prefix chosen at
    each key node stands for the same namespace at the carrying entry. *)
Theorem C76_finds_partial : forall nm m keys x s t l, Scope m -> Forall (Known nm m) keys ->
  ns_pred_string nm keys x = Ok s ->
  (forall k a b, In k keys -> In a (xkids x) -> In b (xkids x) -> xtag a = k -> xtag b = k -> xtext a = xtext b) ->
  (forall c, In c (xkids x) -> In (xtag c) keys -> exists v, xtext c = Some v /\ ~ In "'"%char (chars v)) ->
  exists o, ns_find_key m t s l = Ok o /\
  match o with
  | Some u => exists a e b, l = a ++ (u, e) :: b /\ xtag e = t /\ SameKeys keys x e /\
                forall u' e', In (u', e') a -> xtag e' = t -> ~ SameKeys keys x e'
  | None => forall u e, In (u, e) l -> xtag e = t -> ~ SameKeys keys x e
  end.
Proof. exact ns_found. Qed.
Print Assumptions C76_finds_partial.

Example C76_finds_case : Scope kn_both /\ Forall (Known (fun _ => kn_default) kn_both) kn_keys /\
  ns_pred_string (fun _ => kn_default) kn_keys (kn_rule "a" "20") = Ok "[name='a'][seq='20']" /\
  ns_find_key kn_both kn_tag "[name='a'][seq='20']" kn_sum = Ok (Some (kn_uid "a" "20")).
Proof. exact (conj (proj2 (proj2 kn_scopes)) (conj kn_known (conj eq_refl eq_refl))). Qed.
Example C76_finds_texts :
  (forall k a b, In k kn_keys -> In a (xkids (kn_rule "a" "20")) -> In b (xkids (kn_rule "a" "20")) ->
     xtag a = k -> xtag b = k -> xtext a = xtext b) /\
  (forall c, In c (xkids (kn_rule "a" "20")) -> In (xtag c) kn_keys -> exists v, xtext c = Some v /\ ~ In "'"%char (chars v)).
Proof. exact kn_texts. Qed.

(** A name written with the prefixes of an element means there the node it is for. *)
Theorem C76_written : forall m u n, Scope m -> In u (map snd m) -> NCName n ->
  Means m (url_prefix_id m (etree u n)) u n.
Proof. exact written_means. Qed.
Print Assumptions C76_written.

(** Reading follows the meaning of names. *)
Theorem C76_read : forall m s u n, Scope m -> NCName n -> Means m s u n -> ns_name m s = Ok (etree u n).
Proof. exact read_means. Qed.
Print Assumptions C76_read.

(** The condition is exact: written at one element and read at another, a name is the same
    node only if the prefix chosen by the first stands for that namespace in the second. *)
Theorem C76_exact : forall mp m u n, Scope mp -> Scope m -> NCName n -> In u (map snd mp) ->
  (ns_name m (url_prefix_id mp (etree u n)) = Ok (etree u n) <-> exists p, Chosen mp u p /\ In (p, u) m).
Proof. exact across_exact. Qed.
Print Assumptions C76_exact.

(** A prefix that the second does not declare is an error. *)
Theorem C76_error : forall mp m u n p, Scope mp -> NCName n -> Chosen mp u (Some p) ->
  ~ In (Some p) (map fst m) -> ns_name m (url_prefix_id mp (etree u n)) = Err SyntaxError.
Proof. exact across_error. Qed.
Print Assumptions C76_error.

Example C76_case : (Scope kn_default /\ Scope kn_prefix /\ Scope kn_both) /\
  (Chosen kn_default kn_url None /\ Chosen kn_prefix kn_url (Some "acl") /\ Chosen kn_both kn_url None) /\
  url_prefix_id kn_prefix "{urn:acl}name" = "acl:name" /\ url_prefix_id kn_default "{urn:acl}name" = "name" /\
  ns_name kn_both "acl:name" = Ok "{urn:acl}name" /\ ns_name kn_default "acl:name" = Err SyntaxError /\
  ns_name kn_prefix "name" = Ok "{urn:netconf}name".
Proof. exact (conj kn_scopes (conj kn_chosen (conj eq_refl (conj eq_refl (conj eq_refl (conj eq_refl eq_refl)))))). Qed.

(** The attribute of the delta model, which keeps names in [{url}name] notation, finds the
    same entries. *)
Theorem C76_simplified : forall nm m keys x s, Scope m -> Forall (Known nm m) keys ->
  Forall (fun k => has_char "=" k = false) keys ->
  (forall k kn, In k keys -> find_kid k (xkids x) = Some kn -> has_char "'" (text_or kn) = false) ->
  ns_pred_string nm keys x = Ok s ->
  exists s0, pred_string keys x = Ok s0 /\ forall t l, ns_find_key m t s l = find_key t s0 l.
Proof. exact ns_find_plain. Qed.
Print Assumptions C76_simplified.

(** Without the condition the statement is false: two entries of one list that declare the
    namespace in different ways, both well formed. Each finds the entry before with its own
    attribute; with the attribute of the other one there is an error although that entry
    exists. *)
Theorem C76_refuted : exists mp m s1 s2,
  Scope mp /\ Scope m /\ In kn_url (map snd mp) /\ In kn_url (map snd m) /\
  ns_pred_string (fun _ => mp) kn_keys (kn_rule "a" "20") = Ok s1 /\
  ns_pred_string (fun _ => m) kn_keys (kn_rule "a" "20") = Ok s2 /\
  (ns_ref_sibling m (kn_item s2) kn_sum = Ok (kn_uid "a" "20") /\ ns_ref_sibling mp (kn_item s1) kn_sum = Ok (kn_uid "a" "20")) /\
  ns_ref_sibling m (kn_item s1) kn_sum = Err SyntaxError /\
  ns_ref_sibling mp (kn_item s2) kn_sum = Err ConfigDeltaError.
Proof. exact kn_mixed. Qed.
Print Assumptions C76_refuted.
