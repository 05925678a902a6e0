(** C77: the marks of diff_type='minimum-replace'. *)
From Coq Require Import String Ascii List Bool Arith ZArith Lia.
From Verif Require Import Base XmlM CalcM NetconfM ConfigM DataSpec DeltaSpec ConfigSpec CompatP DeltaPropsP PruneSpec ReorderM ReorderSpec ReorderP
  MarkM MarkSpec MarkP ExampleM ExampleDelta PropsDelta.
Import ListNotations.
Open Scope string_scope.
Open Scope list_scope.
Open Scope nat_scope.

(** ** C77
    Full statement: with diff_type='minimum-replace' and an expression in replace_xpath,
    the nodes of the delta that the expression selects are replaced by the receiver, and
    [a + (b - a) == b]. The proved part says which nodes are marked and that the sum is
    right; the marks themselves are no NETCONF operations. *)
Theorem C77_marks : forall q o s b a, o_type o = DMinimumReplace ->
  match nc_sub_xpath (Some q) o s b a with
  | Ok y => exists e, nc_sub (as_minimum o) s b a = Ok e /\
      ((exists sel, q e = XNodes sel /\ MarkedAt "operation" "replace" (fun p => sel p = true) e y) \/
       ((q e = XTexts 0 \/ q e = XString "") /\ y = e))
  | Err x => nc_sub (as_minimum o) s b a = Err x \/
      exists e, nc_sub (as_minimum o) s b a = Ok e /\
      ((exists n, q e = XTexts (S n) /\ x = AttributeError) \/ (exists c r, q e = XString (String c r) /\ x = AttributeError) \/
       (q e = XNumber /\ x = TypeError) \/ q e = XRaise x)
  end.
Proof. exact xpath_marks. Qed.
Print Assumptions C77_marks.

(** A receiver that looks only at the attributes of the NETCONF and YANG namespaces sees
    the minimal delta, and so does [Config.__add__]. *)
Theorem C77_ignored : forall s x d d', SameEdit d d' -> config_add s x d = config_add s x d'.
Proof. exact same_edit_config. Qed.
Print Assumptions C77_ignored.

Theorem C77_sum : forall q o s b a y, o_type o = DMinimumReplace -> nc_sub_xpath q o s b a = Ok y ->
  exists e, nc_sub (as_minimum o) s b a = Ok e /\ SameEdit e y /\ forall x, config_add s x y = config_add s x e.
Proof. exact xpath_sum. Qed.
Print Assumptions C77_sum.

Theorem C77_round_trip_partial : forall q o s a b y,
  wfs s = true -> sty s = TRoot -> IsConfig s a -> IsConfig s b -> Comparable s a b -> RootKept o s a b ->
  o_type o = DMinimumReplace -> nc_sub_xpath q o s b a = Ok y -> Reaches s (config_add s a y) b.
Proof. exact xpath_reaches. Qed.
Print Assumptions C77_round_trip_partial.

(** No node of the delta is an operation because of its mark. *)
Theorem C77_no_operation : forall q o s b a y, o_type o = DMinimumReplace -> nc_sub_xpath q o s b a = Ok y ->
  exists e, nc_sub (as_minimum o) s b a = Ok e /\
    map (fun p => get_attr operation_tag (snd p)) (places [] y) = map (fun p => get_attr operation_tag (snd p)) (places [] e).
Proof. exact xpath_no_operation. Qed.
Print Assumptions C77_no_operation.

(** A receiver that reads the marks as operations: what the two configs have in common
    is lost, and what was deleted is back. *)
Theorem C77_read_refuted : exists o s a b y r,
  wfs s = true /\ sty s = TRoot /\ IsConfig s a /\ IsConfig s b /\ Comparable s a b /\ RootKept o s a b /\
  o_type o = DMinimumReplace /\ nc_sub_xpath None o s b a = Ok y /\
  config_add s a (read_mark y) = Ok r /\ cmp_eq s r b = Ok false /\
  In "22" (leaf_texts "tcp-port" a) /\ In "22" (leaf_texts "tcp-port" b) /\ ~ In "22" (leaf_texts "tcp-port" r) /\
  ~ In "n1" (leaf_texts "ntp" b) /\ In "n1" (leaf_texts "ntp" r).
Proof.
  exists (Opts PCMerge PRMerge PDDelete DMinimumReplace 0), ex_schema, ex_a, ex_b. do 2 eexists.
  destruct case_config as (H1 & H2 & H3 & H4).
  split; [exact H3 |]. split; [exact H4 |]. split; [exact H1 |]. split; [exact H2 |]. split; [exact case_comparable |].
  split; [apply C06_case |]. split; [reflexivity |]. split; [vm_compute; reflexivity |]. split; [vm_compute; reflexivity |].
  split; [vm_compute; reflexivity |]. vm_compute. intuition discriminate.
Qed.
Print Assumptions C77_read_refuted.

(** The users of the example marked by [//user]. *)
Definition ex_users (p : list nat) : bool := list_eqb Nat.eqb p [0; 7] || list_eqb Nat.eqb p [0; 8] || list_eqb Nat.eqb p [0; 9].
Example C77_case : exists y e,
  nc_sub_xpath (Some (fun _ => XNodes ex_users)) (Opts PCMerge PRMerge PDDelete DMinimumReplace 3) ex_schema ex_b ex_a = Ok y /\
  nc_sub default_opts ex_schema ex_b ex_a = Ok e /\ y <> e /\
  filter (fun p => match get_attr "operation" (snd p) with Some _ => true | None => false end) (places [] y) <> [] /\
  config_add ex_schema ex_a y = config_add ex_schema ex_a e.
Proof.
  do 2 eexists. split; [vm_compute; reflexivity |]. split; [vm_compute; reflexivity |].
  split; [discriminate |]. split; [vm_compute; discriminate | vm_compute; reflexivity].
Qed.
