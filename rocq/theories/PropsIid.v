(** C64: instance-identifiers keep their meaning when they are rewritten for another node. *)
From Coq Require Import String Ascii List Bool Arith Lia.
From Verif Require Import Base BaseP TagM TagSpec TagP RefM RefSpec RefP RefPropsP IidSpec IidP IidPropsP.
Import ListNotations.
Open Scope string_scope.
Open Scope list_scope.

(** ** C64
    If every namespace of the path has a prefix at the other node, the result denotes the
    same path there; without another node, module names are the prefixes. Names with dots,
    positions and literals that end in a doubled quote are left out (see the refutations
    below), and so are blanks inside of predicates. *)
Theorem C64_kept_partial : forall T w t m to l s, Unambiguous T -> In w (map e_url T) -> Name t -> Nsmap m ->
  Prefixes T to -> Denotes T m None l s -> Forall Tame l -> l <> [] -> (forall u, In u (urls s) -> Reach T to u) ->
  exists l', iid_convert T (RNode (etree w t) m (Some (to_s (show_items l)))) to = Ok (to_s (show_items l')) /\
    Denotes T (to_map to) None l' s /\ Forall Canon l'.
Proof. exact iid_kept. Qed.
Print Assumptions C64_kept_partial.

Example C64_kept_partial_example : Unambiguous ref_table /\ Nsmap iid_map /\ Prefixes ref_table (Some other_map) /\
  Denotes ref_table iid_map None ex_items ex_sem /\ Forall Tame ex_items /\
  (forall u, In u (urls ex_sem) -> Reach ref_table (Some other_map) u) /\
  to_s (show_items ex_items) =
    "/oc-if:interfaces/interface[name=""a'b""]/oc-ip:addr[.='x]/y'][oc-if:k='1']" /\
  iid_convert ref_table (RNode (etree u_if "peer") iid_map (Some (to_s (show_items ex_items)))) (Some other_map) =
    Ok "/x:interfaces/x:interface[x:name='a''b']/oc-if:addr[.='x]/y'][x:k='1']".
Proof.
  split; [exact ref_unambiguous|]. split; [exact (proj1 ex_maps)|]. split; [exact (proj2 ex_prefixes)|].
  split; [exact ex_denotes|]. split; [exact (proj1 ex_tame)|]. split; [exact ex_reach|].
  split; [vm_compute; reflexivity | exact (proj1 ex_convert)].
Qed.

(** If one of its namespaces has no prefix at the other node, the path is refused. *)
Theorem C64_refused : forall T w t m m' l s, Unambiguous T -> In w (map e_url T) -> Name t -> Nsmap m ->
  Prefixes T (Some m') -> Denotes T m None l s -> Forall Tame l -> l <> [] ->
  (exists u, In u (urls s) /\ ~ Reach T (Some m') u) ->
  iid_convert T (RNode (etree w t) m (Some (to_s (show_items l)))) (Some m') = Err ConfigError.
Proof. exact iid_refused. Qed.
Print Assumptions C64_refused.

Example C64_refused_example : In u_ip (urls ex_sem) /\ ~ Reach ref_table (Some [(Some "x", u_if)]) u_ip /\
  iid_convert ref_table (RNode (etree u_if "peer") iid_map (Some (to_s (show_items ex_items)))) (Some [(Some "x", u_if)]) =
    Err ConfigError.
Proof.
  split; [vm_compute; tauto|]. split; [|exact (proj1 (proj2 ex_convert))].
  intros (p & [E|[]]). discriminate E.
Qed.

(** So what a merge writes into the other config denotes the same path there, or the merge is
    refused. *)
Theorem C64_merge_partial : forall T w t m y l s, Unambiguous T -> In w (map e_url T) -> Name t -> Nsmap m -> Prefixes T (Some (r_nsmap y)) ->
  Denotes T m None l s -> Forall Tame l -> l <> [] ->
  ((forall u, In u (urls s) -> Reach T (Some (r_nsmap y)) u) ->
    exists l', ref_merge T DInstance (RNode (etree w t) m (Some (to_s (show_items l)))) y = Ok (Some (to_s (show_items l'))) /\
      Denotes T (r_nsmap y) None l' s) /\
  ((exists u, In u (urls s) /\ ~ Reach T (Some (r_nsmap y)) u) ->
    ref_merge T DInstance (RNode (etree w t) m (Some (to_s (show_items l)))) y = Err ConfigError).
Proof. exact iid_merge. Qed.
Print Assumptions C64_merge_partial.
Example C64_merge_case : ref_merge ref_table DInstance (RNode (etree u_if "peer") iid_map (Some (to_s (show_items ex_items)))) (RNode "" other_map None) =
    Ok (Some "/x:interfaces/x:interface[x:name='a''b']/oc-if:addr[.='x]/y'][x:k='1']").
Proof. vm_compute. reflexivity. Qed.

(** Two leaves are the same exactly if they denote the same path, whatever prefixes, module
    names and quotes they use. *)
Theorem C64_same_partial : forall T w t m1 m2 l1 l2 s1 s2, Unambiguous T -> Prefixes T None -> In w (map e_url T) -> Name t ->
  Nsmap m1 -> Nsmap m2 -> Denotes T m1 None l1 s1 -> Denotes T m2 None l2 s2 -> Forall Tame l1 -> Forall Tame l2 ->
  l1 <> [] -> l2 <> [] -> (forall u, In u (urls s1 ++ urls s2) -> In u (map e_url T)) ->
  exists b, ref_same T DInstance (RNode (etree w t) m1 (Some (to_s (show_items l1))))
                                 (RNode (etree w t) m2 (Some (to_s (show_items l2)))) = Ok b /\ (b = true <-> s1 = s2).
Proof. exact iid_same. Qed.
Print Assumptions C64_same_partial.

Example C64_same_partial_example : Denotes ref_table iid_map None ex_items ex_sem /\
  Denotes ref_table other_map None other_items ex_sem /\ Forall Tame other_items /\ Nsmap other_map /\
  Prefixes ref_table None /\
  to_s (show_items other_items) =
    "/x:interfaces/openconfig-interfaces:interface[x:name='a''b']/oc-if:addr[.=""x]/y""][x:k='1']" /\
  ref_same ref_table DInstance (RNode (etree u_if "peer") iid_map (Some (to_s (show_items ex_items))))
    (RNode (etree u_if "peer") other_map (Some (to_s (show_items other_items)))) = Ok true.
Proof.
  split; [exact ex_denotes|]. split; [exact other_denotes|]. split; [exact (proj2 ex_tame)|].
  split; [exact (proj2 ex_maps)|]. split; [exact (proj1 ex_prefixes)|].
  split; [vm_compute; reflexivity | exact (proj2 (proj2 ex_convert))].
Qed.

(** A text denotes one path only, so "the same path" is well defined. *)
Theorem C64_one_meaning : forall T m l l' s s', Unambiguous T -> Nsmap m -> Denotes T m None l s -> Denotes T m None l' s' ->
  to_s (show_items l) = to_s (show_items l') -> l = l' /\ s = s'.
Proof. exact one_meaning. Qed.
Print Assumptions C64_one_meaning.

Example C64_one_meaning_example : Nsmap iid_map /\ Denotes ref_table iid_map None ex_items ex_sem.
Proof. split; [exact (proj1 ex_maps) | exact ex_denotes]. Qed.

(** The full statement fails. A name with a dot becomes another text, which does not denote
    the path any more. *)
Theorem C64_dot_refuted : exists T m l s text, Unambiguous T /\ Nsmap m /\ Denotes T m None l s /\
  iid_convert T (RNode (etree u_if "peer") m (Some (to_s (show_items l)))) (Some m) = Ok text /\
  Lost T (Some m) text s.
Proof.
  destruct dot_lost as (D & text & E & L).
  exact (ex_intro _ ref_table (ex_intro _ iid_map (ex_intro _ dot_items (ex_intro _ dot_sem (ex_intro _ text
    (conj ref_unambiguous (conj (proj1 ex_maps) (conj D (conj E L))))))))).
Qed.
Print Assumptions C64_dot_refuted.

(** A position gets a prefix. *)
Theorem C64_position_refuted : exists T m l s text, Unambiguous T /\ Nsmap m /\ Denotes T m None l s /\
  iid_convert T (RNode (etree u_if "peer") m (Some (to_s (show_items l)))) (Some m) = Ok text /\
  Lost T (Some m) text s.
Proof.
  destruct nth_lost as (D & text & E & L).
  exact (ex_intro _ ref_table (ex_intro _ iid_map (ex_intro _ nth_items (ex_intro _ nth_sem (ex_intro _ text
    (conj ref_unambiguous (conj (proj1 ex_maps) (conj D (conj E L))))))))).
Qed.
Print Assumptions C64_position_refuted.

(** A path that was accepted can be refused after it was rewritten, although it still denotes
    the same path. *)
Theorem C64_twice_refuted : exists l l' s, Denotes ref_table iid_map None l s /\ Forall Tame l /\
  iid_convert ref_table (here l) (Some iid_map) = Ok (to_s (show_items l')) /\
  Denotes ref_table iid_map None l' s /\ iid_convert ref_table (here l') (Some iid_map) = Err ConfigError.
Proof. destruct end_once as (l' & H). exact (ex_intro _ end_items (ex_intro _ l' (ex_intro _ end_sem H))). Qed.
Print Assumptions C64_twice_refuted.
