(** C89: the default form of a reference together with [default_ns]. In all statements
    below, [Refers []] and [Denotes []] are the readings without a table of modules: only the
    declared prefixes count, as in XML. *)
From Coq Require Import String Ascii List Bool Arith Lia.
From Verif Require Import Base BaseP TagM TagSpec RefM RefSpec RefPropsP IidSpec IidP IidPropsP DefNsM DefNsSpec DefNsP.
Import ListNotations.
Open Scope string_scope.
Open Scope list_scope.

(** Keeping the dict changes no text and no exception, whatever is in it before; so the
    [default] of a fresh object is the text that is compared. *)
Theorem C89_text : forall T x ns,
  (let! (s, _) := id_default_from T x ns in Ok s) = id_convert T x None /\
  (let! (s, _) := iid_default_from T x ns in Ok s) = iid_convert T x None /\
  default_of T DIdentity x = id_convert T x None /\ default_of T DInstance x = iid_convert T x None.
Proof.
  exact (fun T x ns => conj (id_from_same T x ns) (conj (iid_from_same T x ns)
    (conj (id_from_same T x []) (iid_from_same T x [])))).
Qed.
Print Assumptions C89_text.

(** The default form of an identityref, read with [default_ns] and without knowing the
    modules of the device, is the same identity. *)
Theorem C89_identity : forall T w t m x u n, Unambiguous T -> In w (map e_url T) -> Name t -> Nsmap m ->
  In u (map e_url T) -> Refers T m x u n ->
  exists ns y, id_default_ns T (RNode (etree w t) m (Some x)) = Ok ns /\
    id_convert T (RNode (etree w t) m (Some x)) None = Ok y /\
    Declares T w [u] ns /\ Refers [] ns y u n.
Proof. exact id_ns. Qed.
Print Assumptions C89_identity.

Example C89_identity_case : Unambiguous ref_table /\ In (e_url ex_if) (map e_url ref_table) /\ Nsmap map1 /\
  In (e_url ex_idt) (map e_url ref_table) /\
  Refers ref_table map1 "ianaift:ethernetCsmacd" (e_url ex_idt) "ethernetCsmacd" /\
  id_default_ns ref_table (RNode (etree (e_url ex_if) "type") map1 (Some "ianaift:ethernetCsmacd")) =
    Ok [(None, e_url ex_if); (Some "iana-if-type", e_url ex_idt)].
Proof.
  split; [exact ref_unambiguous |]. split; [left; reflexivity |]. split; [exact (proj1 ex_nsmaps) |].
  split; [right; right; left; reflexivity |]. split; [exact (proj1 ex_refers) | vm_compute; reflexivity].
Qed.

(** The default form of an instance-identifier is the same path exactly if it has no name of
    the module of its own node. *)
Theorem C89_instance_partial : forall T w t m l s, Unambiguous T -> Prefixes T None -> In w (map e_url T) -> Name t -> Nsmap m ->
  Denotes T m None l s -> Forall Tame l -> l <> [] -> (forall u, In u (urls s) -> In u (map e_url T)) ->
  exists ns y, iid_default_ns T (RNode (etree w t) m (Some (to_s (show_items l)))) = Ok ns /\
    iid_convert T (RNode (etree w t) m (Some (to_s (show_items l)))) None = Ok y /\
    Declares T w (urls s) ns /\ ((exists l', to_s (show_items l') = y /\ Denotes [] ns None l' s) <-> ~ In w (urls s)).
Proof. exact iid_ns. Qed.
Print Assumptions C89_instance_partial.

Example C89_instance_case : Prefixes ref_table None /\ Denotes ref_table iid_map None ex_items ex_sem /\ Forall Tame ex_items /\
  (forall u, In u (urls ex_sem) -> In u (map e_url ref_table)) /\ ~ In (e_url ex_idt) (urls ex_sem) /\
  iid_default_ns ref_table (RNode (etree (e_url ex_idt) "peer") iid_map (Some (to_s (show_items ex_items)))) =
    Ok [(None, e_url ex_idt); (Some "openconfig-interfaces", u_if); (Some "openconfig-if-ip", u_ip)].
Proof.
  split; [exact (proj1 ex_prefixes) |]. split; [exact ex_denotes |]. split; [exact (proj1 ex_tame) |].
  split; [intros u H; cbn in H; repeat (destruct H as [<- | H]; [vm_compute; tauto |]); destruct H |].
  split; [vm_compute; intuition discriminate | vm_compute; reflexivity].
Qed.

(** For an instance-identifier into the module of its own node, no reading of the default form
    with [default_ns] is the path: the name of the module is used as a prefix and not
    declared. *)
Theorem C89_instance_refuted : exists T w m l s ns text, Unambiguous T /\ Prefixes T None /\ Nsmap m /\ Denotes T m None l s /\
  iid_default_ns T (RNode (etree w "peer") m (Some (to_s (show_items l)))) = Ok ns /\
  iid_convert T (RNode (etree w "peer") m (Some (to_s (show_items l)))) None = Ok text /\
  forall l', to_s (show_items l') = text -> ~ Denotes [] ns None l' s.
Proof.
  assert (N : Name "peer") by (split; [word | split; not_in]).
  assert (R : forall u, In u (urls ex_sem) -> In u (map e_url ref_table)).
  { intros u H. cbn in H. repeat (destruct H as [<- | H]; [vm_compute; tauto |]). destruct H. }
  destruct (iid_ns ref_table u_if "peer" iid_map ex_items ex_sem ref_unambiguous (proj1 ex_prefixes) (or_introl eq_refl) N
    (proj1 ex_maps) ex_denotes (proj1 ex_tame) ltac:(discriminate) R) as (ns & y & E1 & E2 & D & X).
  exists ref_table, u_if, iid_map, ex_items, ex_sem, ns, y.
  split; [exact ref_unambiguous |]. split; [exact (proj1 ex_prefixes) |]. split; [exact (proj1 ex_maps) |].
  split; [exact ex_denotes |]. split; [exact E1 |]. split; [exact E2 |].
  intros k E K. apply X; [exists k; auto | left; reflexivity].
Qed.
Print Assumptions C89_instance_refuted.
