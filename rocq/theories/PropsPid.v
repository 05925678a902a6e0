(** C90: [parse_instanceid]. *)
From Coq Require Import String Ascii List Bool Arith Lia.
From Verif Require Import Base BaseP TagM TagSpec RefM RefSpec RefPropsP IidSpec IidP IidPropsP PidM PidSpec PidP.
Import ListNotations.
Open Scope string_scope.
Open Scope list_scope.

(** A path of one step is rewritten rightly. *)
Theorem C90_one_partial : forall T w t m to c q, Unambiguous T -> In w (map e_url T) -> Name t -> Delim c -> Plain q ->
  parse_instanceid T (RNode (etree w t) m (Some (to_s (c :: q)))) to =
  (let! l := rewritten (pid_conv T w m to) [([], c)] q in Ok (to_s l)).
Proof. exact pid_one. Qed.
Print Assumptions C90_one_partial.

(** What any text becomes: every delimiter is put before the word that it follows. *)
Theorem C90_exact : forall T w t m to x, Unambiguous T -> In w (map e_url T) -> Name t -> Words x ->
  parse_instanceid T (RNode (etree w t) m (Some (to_s (spelled x)))) to =
  (let! l := swapped (pid_conv T w m to) (fst x) (snd x) in Ok (to_s l)).
Proof. exact pid_exact. Qed.
Print Assumptions C90_exact.

(** Every text is made of words and delimiters. *)
Theorem C90_texts : forall l, exists x, Words x /\ spelled x = l.
Proof. exact all_words. Qed.
Print Assumptions C90_texts.

(** A path with more than a first step becomes a text that denotes nothing, whatever the modules
    and namespaces it is read with. *)
Theorem C90_lost_refuted : forall T w t m to i j l s text, Unambiguous T -> In w (map e_url T) -> Name t ->
  Denotes T m None (i :: j :: l) s -> Tame i ->
  parse_instanceid T (RNode (etree w t) m (Some (to_s (show_items (i :: j :: l))))) to = Ok text ->
  forall T' m' l' s', to_s (show_items l') = text -> ~ Denotes T' m' None l' s'.
Proof. exact pid_lost. Qed.
Print Assumptions C90_lost_refuted.

Example C90_case : Unambiguous ref_table /\ In u_if (map e_url ref_table) /\ Name "peer" /\ Delim "/"%char /\
  Plain (of_s "oc-if:interfaces") /\
  parse_instanceid ref_table (RNode (etree u_if "peer") iid_map (Some "/oc-if:interfaces")) (Some other_map) = Ok "/interfaces" /\
  parse_instanceid ref_table (RNode (etree u_if "peer") iid_map (Some "/oc-if:interfaces")) None = Ok "/interfaces" /\
  parse_instanceid ref_table (RNode (etree u_ip "peer") iid_map (Some "/oc-if:interfaces")) None =
    Ok "/openconfig-interfaces:interfaces".
Proof.
  split; [exact ref_unambiguous |]. split; [left; reflexivity |]. split; [split; [word | split; not_in] |].
  split; [left; reflexivity |]. split.
  - intros c I D. apply delim_ok in D. cbn in I. repeat (destruct I as [<- | I]; [discriminate D |]). destruct I.
  - repeat split; vm_compute; reflexivity.
Qed.
Definition two_steps := [Step (Some "oc-if") "interfaces"; Step (Some "oc-if") "interface"].
Example C90_lost_case : Denotes ref_table iid_map None two_steps [VStep u_if "interfaces"; VStep u_if "interface"] /\
  Tame (Step (Some "oc-if") "interfaces") /\
  parse_instanceid ref_table (RNode (etree u_if "peer") iid_map (Some (to_s (show_items two_steps)))) None = Ok "//interfacesinterface".
Proof.
  split; [repeat (apply DStep; [apply Resolved_prefix; [yang | left; vm_compute; tauto] | yang |]); apply DNil |].
  split; [split; nodot | vm_compute; reflexivity].
Qed.
