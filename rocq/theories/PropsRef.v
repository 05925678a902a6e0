(** C40, C41, C42: identityref and instance-identifier values. *)
From Coq Require Import String Ascii List Bool Arith.
From Verif Require Import Base TagM TagSpec RefM RefSpec RefP RefPropsP.
Import ListNotations.
Open Scope string_scope.
Open Scope list_scope.

(** ** C40
    Two identityref leaves compare equal exactly if they refer to the same identity,
    whatever their prefixes. *)
Theorem C40_same : forall T w t m1 m2 x y u n v k,
  Unambiguous T -> In w (map e_url T) -> Name t -> Nsmap m1 -> Nsmap m2 ->
  In u (map e_url T) -> In v (map e_url T) ->
  Refers T m1 x u n -> Refers T m2 y v k ->
  exists b, ref_same T DIdentity (RNode (etree w t) m1 (Some x)) (RNode (etree w t) m2 (Some y)) = Ok b /\
            (b = true <-> u = v /\ n = k).
Proof. exact identity_same. Qed.
Print Assumptions C40_same.

(** Writing a value into another node keeps its meaning, and is refused exactly if the
    other node has no prefix for it. *)
Theorem C40_merge : forall T w t m1 x u n to,
  Unambiguous T -> In w (map e_url T) -> Name t -> Nsmap m1 -> Nsmap (r_nsmap to) ->
  Refers T m1 x u n ->
  (In u (map snd (r_nsmap to)) ->
     exists s, ref_merge T DIdentity (RNode (etree w t) m1 (Some x)) to = Ok (Some s) /\
               Refers T (r_nsmap to) s u n) /\
  (~ In u (map snd (r_nsmap to)) ->
     ref_merge T DIdentity (RNode (etree w t) m1 (Some x)) to = Err ConfigError).
Proof. exact identity_merge. Qed.
Print Assumptions C40_merge.

Example C40_case : Unambiguous ref_table /\ (Nsmap map1 /\ Nsmap map2) /\
  (Refers ref_table map1 "ianaift:ethernetCsmacd" (e_url ex_idt) "ethernetCsmacd" /\
   Refers ref_table map2 "t:ethernetCsmacd" (e_url ex_idt) "ethernetCsmacd" /\
   Refers ref_table map2 "iana-if-type:ethernetCsmacd" (e_url ex_idt) "ethernetCsmacd" /\
   Refers ref_table map1 "ethernetCsmacd" (e_url ex_if) "ethernetCsmacd").
Proof. exact (conj ref_unambiguous (conj ex_nsmaps ex_refers)). Qed.
Example C40_case_values :
  ref_same ref_table DIdentity (leaf map1 "ianaift:ethernetCsmacd") (leaf map2 "t:ethernetCsmacd") = Ok true /\
  ref_same ref_table DIdentity (leaf map1 "ianaift:ethernetCsmacd") (leaf map1 "ethernetCsmacd") = Ok false /\
  ref_merge ref_table DIdentity (leaf map1 "ianaift:ethernetCsmacd") (leaf map2 "t:other") = Ok (Some "t:ethernetCsmacd").
Proof. exact ex_same. Qed.

(** A value that refers to nothing is refused on either side. *)
Theorem C40_meaningless : forall T w t m x, Unambiguous T -> In w (map e_url T) -> Name t -> Meaningless T m x ->
  (forall to, ref_merge T DIdentity (RNode (etree w t) m (Some x)) to = Err ConfigError) /\
  (forall y, ref_same T DIdentity (RNode (etree w t) m (Some x)) y = Err ConfigError) /\
  (forall m' y u n, Nsmap m' -> In u (map e_url T) -> Refers T m' y u n ->
     ref_same T DIdentity (RNode (etree w t) m' (Some y)) (RNode (etree w t) m (Some x)) = Err ConfigError).
Proof. exact unknown_refused. Qed.
Print Assumptions C40_meaningless.
Example C40_meaningless_case : Meaningless ref_table map1 "nosuch:ethernetCsmacd".
Proof. exact ex_meaningless. Qed.

(** The texts of other leaves are compared as they are, those of containers not at all. *)
Theorem C40_plain : forall T x y, (exists b, ref_same T DPlain x y = Ok b /\ (b = true <-> r_text x = r_text y)) /\ ref_same T DContainer x y = Ok true.
Proof. exact same_plain. Qed.
Print Assumptions C40_plain.

(** Entries are peers exactly if all their keys are the same in this sense, however many
    there are. *)
Theorem C40_peers : forall T a b P, Unambiguous T -> KeysSame T a b P -> exists r, peer_keys T a b = Ok r /\ (r = true <-> P).
Proof. exact peers. Qed.
Print Assumptions C40_peers.
Example C40_peers_case : KeysSame ref_table
    [(DIdentity, leaf map1 "ianaift:ethernetCsmacd"); (DPlain, RNode "name" [] (Some "eth0"))]
    [(DIdentity, leaf map2 "t:ethernetCsmacd"); (DPlain, RNode "name" [] (Some "eth1"))]
    ((e_url ex_idt = e_url ex_idt /\ "ethernetCsmacd" = "ethernetCsmacd") /\ Some "eth0" = Some "eth1" /\ True) /\
  peer_keys ref_table [(DIdentity, leaf map1 "ianaift:ethernetCsmacd"); (DPlain, RNode "name" [] (Some "eth0"))]
    [(DIdentity, leaf map2 "t:ethernetCsmacd"); (DPlain, RNode "name" [] (Some "eth1"))] = Ok false.
Proof.
  split; [| vm_compute; reflexivity]. destruct ex_refers as (R1 & R2 & _). destruct ex_nsmaps as [N1 N2].
  apply KIdentity; auto; [vm_compute; tauto | split; [split; [discriminate |] |]; vm_compute; intuition discriminate | vm_compute; tauto | vm_compute; tauto |].
  exact (KPlain ref_table (RNode "name" [] (Some "eth0")) (RNode "name" [] (Some "eth1")) [] [] True (KNoKey ref_table)).
Qed.

(** List entries keyed by an identityref: the keys by which _pair_children pairs them
    depend on the prefix, although _is_peer calls the entries peers. *)
Theorem C40_keys_refuted : exists T a b,
  peer_keys T [(DIdentity, a)] [(DIdentity, b)] = Ok true /\
  exists ka kb, pair_key T [a] = Ok ka /\ pair_key T [b] = Ok kb /\ ka <> kb.
Proof. exact (ex_intro _ ref_table keys_raw). Qed.
Print Assumptions C40_keys_refuted.

(** ** C41
    The pieces always concatenate to the text, after any cuts and at the end of the
    whole conversion. *)
Theorem C41_cuts : forall ops l, Forall (fun '(s, e, _, _) => s <= e) ops ->
  flat_map p_str (cuts ops l) = flat_map p_str l.
Proof. exact cuts_text. Qed.
Print Assumptions C41_cuts.

Theorem C41_pieces : forall T m to text ps, iid_pieces T m to text = Ok ps ->
  flat_map p_str ps = list_ascii_of_string text.
Proof. exact iid_pieces_text. Qed.
Print Assumptions C41_pieces.

Example C41_case : exists ps, iid_pieces ref_table iid_map None iid_text = Ok ps /\ length ps = 16 /\
  to_s (flat_map p_conv ps) =
  "/openconfig-interfaces:interfaces/openconfig-interfaces:interface[openconfig-interfaces:name='a''b']/openconfig-if-ip:ipv4[openconfig-interfaces:k='1']".
Proof. exact ex_iid. Qed.

(** ** C42
    Full statement: for all literals. It is false for literals whose inside ends in a
    doubled quote. Proved for all texts whose literals do not: they are cut into
    exactly the literals and the text between them, and every literal is rewritten to
    one with apostrophes that stands for the same characters. *)
Theorem C42_found_partial : forall gs tail, Spelled gs tail -> Forall PlainEnd gs -> spell gs tail <> [] ->
  exists ps, parse_quote [(spell gs tail, 0, spell gs tail)] = Ok ps /\ Pieces gs tail ps.
Proof. exact quotes_found. Qed.
Print Assumptions C42_found_partial.

(** Every literal whose inside ends in a doubled quote is refused. *)
Theorem C42_pair_at_end_refuted : forall g tail, Spelled [g] tail -> ~ PlainEnd g -> ~ In (g_quote g) tail ->
  parse_quote [(spell [g] tail, 0, spell [g] tail)] = Err ConfigError.
Proof. exact pair_end_refused. Qed.
Print Assumptions C42_pair_at_end_refuted.

Example C42_case : Spelled [seg_mid] (of_s "]") /\ PlainEnd seg_mid /\ Spelled [seg_end] (of_s "]") /\ ~ PlainEnd seg_end /\
  ~ In (g_quote seg_end) (of_s "]").
Proof. exact ex_spelled. Qed.
