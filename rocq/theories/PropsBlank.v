(** C64 for instance-identifiers with blanks in predicates, which RFC 7950 section 14 allows. *)
From Coq Require Import String Ascii List Bool Arith Lia.
From Verif Require Import Base BaseP TagM TagSpec TagP RefM RefSpec RefP RefPropsP IidSpec IidP IidPropsP BlankSpec BlankP BlankLateP.
Import ListNotations.
Open Scope string_scope.
Open Scope list_scope.

(** Whatever comes later, a text is refused if something else than a quote follows an equals
    sign that is not in a literal. *)
Theorem C64_equals : forall T w t m to gs tail c rest, Unambiguous T -> In w (map e_url T) -> Name t ->
  Spelled gs tail -> Forall PlainEnd gs -> ~ Quote c ->
  iid_convert T (RNode (etree w t) m (Some (to_s (spell gs (tail ++ "="%char :: c :: rest))))) to = Err ConfigError.
Proof. exact equals_refused. Qed.
Print Assumptions C64_equals.
Example C64_equals_case : Spelled [Segment (of_s "/oc-if:a[k") apos (of_s "x=y")] (of_s "][oc-if:j") /\ ~ Quote "3"%char /\
  to_s (spell [Segment (of_s "/oc-if:a[k") apos (of_s "x=y")] (of_s "][oc-if:j" ++ "="%char :: "3"%char :: of_s "]")) = "/oc-if:a[k='x=y'][oc-if:j=3]".
Proof.
  split; [| split; [intros [E | E]; discriminate E | reflexivity]]. cbn [Spelled g_text g_quote g_body].
  split; [vm_compute; intuition discriminate |]. split; [left; reflexivity |]. split; [exists (of_s "x=y"); unfold of_s; cbn; inside |].
  split; [discriminate | vm_compute; intuition discriminate].
Qed.

(** So every path with a blank after an equals sign is refused, although it is valid. *)
Theorem C64_space_refuted : forall T w t m to l1 k q b l2 s w1 w2 c rest, Unambiguous T -> In w (map e_url T) -> Name t ->
  Denotes T m None (l1 ++ Pred k q b :: l2) s -> Forall Tame l1 -> Blanks w1 -> Blanks w2 -> Blank c ->
  iid_convert T (RNode (etree w t) m (Some (to_s (show_items l1 ++ "["%char :: w1 ++ key_text k ++ w2 ++ "="%char :: c :: rest)))) to = Err ConfigError.
Proof. exact space_refused. Qed.
Print Assumptions C64_space_refuted.
Example C64_space_case : Denotes ref_table iid_map None ([Step (Some "oc-if") "a"] ++ Pred (Some (Some "oc-if", "k")) apos (of_s "1") :: []) blank_sem /\
  Forall Tame [Step (Some "oc-if") "a"] /\ Blank " "%char /\
  Spaced blank_items (of_s "/oc-if:a[oc-if:k = '1']") /\
  iid_convert ref_table (RNode (etree u_if "peer") iid_map (Some "/oc-if:a[oc-if:k = '1']")) (Some iid_map) = Err ConfigError.
Proof.
  split; [exact blank_denotes |]. split; [repeat constructor; nodot |]. split; [left; reflexivity |]. split; [| vm_compute; reflexivity].
  exact (SStep (Some "oc-if") "a" _ _ (SPred (Some (Some "oc-if", "k")) apos (of_s "1") [] [] [] [" "%char] [" "%char] [] no_blanks one_blank one_blank no_blanks SNil)).
Qed.

(** A path with a blank before a closing bracket is not rewritten at that step: here the text
    stays what it is, and at the other node it denotes another path. *)
Theorem C64_close_refuted : exists l s text s',
  Spaced l text /\ Denotes ref_table iid_map None l s /\
  iid_convert ref_table (RNode (etree u_if "peer") iid_map (Some (to_s text))) (Some other_map) = Ok (to_s text) /\
  Denotes ref_table other_map None l s' /\ s' <> s /\
  (forall l', Spaced l' text -> ~ Denotes ref_table other_map None l' s).
Proof. exact close_refuted. Qed.
Print Assumptions C64_close_refuted.

(** A blank after an opening bracket gets between the prefix and the name. *)
Theorem C64_open_refuted : exists l s text result,
  Spaced l text /\ Denotes ref_table iid_map None l s /\
  iid_convert ref_table (RNode (etree u_if "peer") iid_map (Some (to_s text))) (Some other_map) = Ok (to_s result) /\
  (forall l', Spaced l' result -> ~ Denotes ref_table other_map None l' s).
Proof. exact open_refuted. Qed.
Print Assumptions C64_open_refuted.

(** Between the name of a key and the equals sign blanks do no harm: whatever the path, the
    result denotes the same path, and the blanks stay where they are. *)
Theorem C64_late_partial : forall T w t m to l x s, Unambiguous T -> In w (map e_url T) -> Name t -> Nsmap m -> Prefixes T to ->
  Late l x -> Denotes T m None l s -> Forall Tame l -> l <> [] -> (forall u, In u (urls s) -> Reach T to u) ->
  exists l' x', iid_convert T (RNode (etree w t) m (Some (to_s x))) to = Ok (to_s x') /\
    Late l' x' /\ Denotes T (to_map to) None l' s /\ Forall Canon l'.
Proof. exact late_kept. Qed.
Print Assumptions C64_late_partial.
Example C64_late_case : Unambiguous ref_table /\ Nsmap iid_map /\ Prefixes ref_table (Some other_map) /\
  Late blank_items (of_s "/oc-if:a[oc-if:k ='1']") /\ Denotes ref_table iid_map None blank_items blank_sem /\ Forall Tame blank_items /\
  iid_convert ref_table (RNode (etree u_if "peer") iid_map (Some "/oc-if:a[oc-if:k ='1']")) (Some other_map) = Ok "/x:a[x:k ='1']".
Proof.
  split; [exact ref_unambiguous |]. split; [exact (proj1 ex_maps) |]. split; [exact (proj2 ex_prefixes) |]. split; [exact late_late |].
  split; [exact blank_denotes |]. split; [| vm_compute; reflexivity]. constructor; [nodot |]. constructor; [| constructor].
  split; [nodot |]. intros [| c [| c' b']] E; discriminate E.
Qed.

(** Such texts are ways to write the path. *)
Theorem C64_late : forall l t, Late l t -> Spaced l t.
Proof. exact late_spaced. Qed.
Print Assumptions C64_late.

(** But the blanks count when two values are compared. *)
Theorem C64_differ_refuted : exists l s x y, Spaced l x /\ Spaced l y /\ Denotes ref_table iid_map None l s /\
  ref_same ref_table DInstance (RNode (etree u_if "peer") iid_map (Some (to_s x))) (RNode (etree u_if "peer") iid_map (Some (to_s y))) = Ok false.
Proof. exact differ_refuted. Qed.
Print Assumptions C64_differ_refuted.

(** With a blank behind it, the dot of a leaf-list predicate gets a prefix. *)
Theorem C64_self_refuted : exists l s text result,
  Spaced l text /\ Denotes ref_table iid_map None l s /\
  iid_convert ref_table (RNode (etree u_if "peer") iid_map (Some (to_s text))) (Some other_map) = Ok (to_s result) /\
  (forall l', Spaced l' result -> ~ Denotes ref_table other_map None l' s).
Proof. exact self_refuted. Qed.
Print Assumptions C64_self_refuted.
