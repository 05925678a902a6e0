(** C91: [find_by_tags] and [add_attribute_by_tags]. *)
From Coq Require Import String Ascii List Bool Arith Sorted.
From Verif Require Import Base XmlM PruneSpec FindM FindSpec FindP.
Import ListNotations.
Open Scope string_scope.
Open Scope list_scope.

(** Exactly the nodes reached by the tags are found. *)
Theorem C91_found : forall x tags q u,
  In (q, u) (find_by_tags x tags) <-> NodeAt x q u /\ exists w, Way x q w /\ Occurs tags w.
Proof. exact found_iff. Qed.
Print Assumptions C91_found.

(** Each node is found as often as there are ways to reach it. *)
Theorem C91_times : forall x tags q w, Way x q w ->
  count_occ (list_eq_dec Nat.eq_dec) (map fst (find_by_tags x tags)) q = ways tags w.
Proof. exact found_times. Qed.
Print Assumptions C91_times.

(** Once and in the order of the document, if no tag but the last is found inside itself. *)
Theorem C91_once_partial : forall x tags, (forall t, In t (removelast tags) -> Unnested x t) ->
  StronglySorted Before (map fst (find_by_tags x tags)) /\ NoDup (map fst (find_by_tags x tags)).
Proof. exact found_sorted. Qed.
Print Assumptions C91_once_partial.

Theorem C91_once_refuted : exists x tags, ~ NoDup (map fst (find_by_tags x tags)).
Proof. exact found_twice. Qed.
Print Assumptions C91_once_refuted.

(** No attribute is ever set. *)
Theorem C91_attribute_refuted : forall x tags n v, add_attribute_by_tags x tags n v = Err TypeError.
Proof. exact no_attribute. Qed.
Print Assumptions C91_attribute_refuted.

Example C91_case : (forall t, In t (removelast ["group"; "name"]) -> Unnested ex_flat t) /\
  map fst (find_by_tags ex_flat ["group"; "name"]) = [[0; 0]; [0; 1]; [1; 0]] /\
  Way ex_nest [0; 1; 0] ["group"; "group"; "name"] /\ Occurs ["group"; "name"] ["group"; "group"; "name"] /\
  ways ["group"; "name"] ["group"; "group"; "name"] = 2.
Proof.
  split; [intros t [<- | []]; exact flat_unnested |]. split; [reflexivity |].
  split; [apply (way_down _ 0 (Elem "group" None [] [ex_leaf; Elem "group" None [] [ex_leaf]])); [reflexivity |];
          apply (way_down _ 1 (Elem "group" None [] [ex_leaf])); [reflexivity |];
          apply (way_down _ 0 ex_leaf); [reflexivity | constructor] |].
  split; [apply oc_take; apply oc_skip; apply oc_take; constructor | reflexivity].
Qed.
