(** C25: objects share trees. *)
From Coq Require Import String Ascii List Bool Arith ZArith Lia.
From Verif Require Import Base XmlM CalcM NetconfM ConfigM FilterM DataSpec DeltaSpec TrimSpec PruneSpec HeapM HeapSpec HeapP HistP ValueSpec ValueP
  ExampleM PrunePropsP HeapPropsP.
Import ListNotations.
Open Scope string_scope.
Open Scope list_scope.

(** ** C25
    One call never changes what existing objects hold, in any state, unless it builds a
    Config from a Config that has something to remove. *)
Theorem C25_one_call : forall s h c i l, (forall check rd j x, c = CFrom check rd j -> Sees h j [x] -> Settled rd s x) ->
  Sees h i l -> Sees (fst (step s h c)) i l.
Proof. exact one_call. Qed.
Print Assumptions C25_one_call.

(** Building a Config from a Config leaves the latter alone exactly if no node of it
    would be removed. *)
Theorem C25_from_exact : forall s h rd j v x h', step s h (CFrom true rd j) = (h', Ok v) -> Sees h j [x] ->
  (Sees h' j [x] <-> Settled rd s x).
Proof. exact from_exact. Qed.
Print Assumptions C25_from_exact.

(** Full statement: for all sequences of calls. It is false, see the refutations below.
    Proved for all sequences of careful calls: what an object held when it came into
    being it holds forever. Missing: filter, extract_config, validate=False and
    remove_deprecated=True on a Config. *)
Theorem C25_history_partial : forall s l1 l2 i l, Forall (Careful s) (l1 ++ l2) ->
  Sees (run s empty_heap l1) i l -> Sees (run s empty_heap (l1 ++ l2)) i l.
Proof. exact history. Qed.
Print Assumptions C25_history_partial.

Example C25_case : Forall (Careful ex_schema) ex_history /\ length (h_trees (run ex_schema empty_heap ex_history)) = 4 /\
  length (h_objs (run ex_schema empty_heap ex_history)) = 9.
Proof. exact (conj ex_careful ex_history_end). Qed.

(** All answers, exceptions included, are those of an API that works on values: the
    deltas, sums, comparisons and edits of ConfigM.v. [Gentle]: whenever a Config is
    built from a Config, nothing is to be removed from it. *)
Theorem C25_answers : forall s l, Gentle s [] l -> answers (step s) empty_heap l = answers (pstep s) [] l.
Proof. intros s l. exact (as_values s l empty_heap [] Views_empty). Qed.
Print Assumptions C25_answers.

Theorem C25_answers_careful_partial : forall s l, Forall (Careful s) l ->
  answers (step s) empty_heap l = answers (pstep s) [] l.
Proof. exact careful_values. Qed.
Print Assumptions C25_answers_careful_partial.

Example C25_answers_case : Gentle ex_schema [] ex_history /\ Forall (fun r => exists v, r = Ok v) (answers (step ex_schema) empty_heap ex_history).
Proof. exact ex_answers. Qed.

(** Without the condition the answers differ. *)
Theorem C25_answers_refuted : exists s l, answers (step s) empty_heap l <> answers (pstep s) [] l.
Proof. exact ex_answers_differ. Qed.
Print Assumptions C25_answers_refuted.

(** ** Calls that change an existing config
    Building a Config with remove_deprecated=True from a validated Config. *)
Theorem C25_deprecated_refuted : exists s l c i, l = [ CNew true false dep_x ] /\ c = CFrom true true 0 /\ Changed s l c i.
Proof. exact (ex_intro _ pr_schema (ex_intro _ _ (ex_intro _ _ (ex_intro _ 0 (conj eq_refl (conj eq_refl deprecated_changes)))))). Qed.
Print Assumptions C25_deprecated_refuted.

(** With it changes a delta that was computed before. *)
Theorem C25_delta_refuted : exists x y d1 d2,
  delta_now (run pr_schema empty_heap [ CNew true false x; CNew true false y; CSub 0 1 ]) 2 = Ok d1 /\
  delta_now (run pr_schema empty_heap [ CNew true false x; CNew true false y; CSub 0 1; CFrom true true 0 ]) 2 = Ok d2 /\
  delta_nc pr_schema d1 <> delta_nc pr_schema d2.
Proof. exact deprecated_changes_delta. Qed.
Print Assumptions C25_delta_refuted.

(** Building a Config from a Config built with validate=False. *)
Theorem C25_unchecked_refuted : exists s x i, Changed s [ CNew false false x ] (CFrom true false 0) i.
Proof. exact (ex_intro _ pr_schema (ex_intro _ pr_x (ex_intro _ 0 unchecked_changes))). Qed.
Print Assumptions C25_unchecked_refuted.

(** Building a Config from the result of extract_config. *)
Theorem C25_extract_refuted : exists s r i, Changed s [ CExtract false r ] (CFrom true false 0) i.
Proof. exact (ex_intro _ pr_schema (ex_intro _ reply_get (ex_intro _ 0 extract_changes))). Qed.
Print Assumptions C25_extract_refuted.

(** Building a Config from the result of filter. *)
Theorem C25_filter_refuted : exists s x xpath i, Changed s [ CNew true false x; CFilter 0 xpath ] (CFrom true false 1) i.
Proof. exact (ex_intro _ ex_schema (ex_intro _ three_ntp (ex_intro _ _ (ex_intro _ 1 filter_changes)))). Qed.
Print Assumptions C25_filter_refuted.
