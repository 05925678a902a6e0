(** Example data for the properties of shared trees. *)
From Coq Require Import String Ascii List Bool Arith ZArith Lia.
From Verif Require Import Base XmlM CalcM NetconfM ConfigM FilterM DataSpec DataP DeltaSpec TrimSpec PruneSpec HeapM HeapSpec ValueSpec ValueP HeapP HistP
  ExampleM PrunePropsP.
Import ListNotations.
Open Scope string_scope.
Open Scope list_scope.

Definition ex_history : list call :=
  [ CNew true false ex_a; CNew true true ex_b; CFrom true false 0; CSub 1 2; CAdd 0 3; CFrom false false 4; CNeg 3; CNc 6;
    CCompare CmpEq 1 4; CAddEle 5 (e_config [ e_leaf "banner" "x" ]); CFrom true false 7 ].
Lemma ex_careful : Forall (Careful ex_schema) ex_history.
Proof.
  repeat (apply Forall_cons; [cbn [Careful]; try exact I; try reflexivity |]); [| apply Forall_nil].
  intros sn n (sm & m & W & I & D). inversion W as [? ? E1 E2 | ? ? c cs ? ? Ic Dc W' E1 E2]; subst.
  - destruct I as [<- | []]. rewrite (Defines_schema_child ex_schema "banner" (s_leaf "banner") sn eq_refl D). discriminate.
  - destruct Ic as [<- | []]. inversion W' as [? ? F1 F2 | ? ? ? ? ? ? I' _ _ F1 F2]; subst; [destruct I | destruct I'].
Qed.

Lemma ex_history_end : length (h_trees (run ex_schema empty_heap ex_history)) = 4 /\ length (h_objs (run ex_schema empty_heap ex_history)) = 9.
Proof. split; vm_compute; reflexivity. Qed.

(** ** Counterexamples *)
Ltac changed := unfold Changed; eexists; eexists; split; [unfold Sees; vm_compute; eexists; split; reflexivity |
  split; [unfold Sees; vm_compute; eexists; split; reflexivity | vm_compute; discriminate]].

Definition dep_x : xml := e_config [ e_node "sys" [ e_leaf "host" "r1"; e_leaf "dep" "2" ] ].
Lemma deprecated_changes : Changed pr_schema [ CNew true false dep_x ] (CFrom true true 0) 0.
Proof. changed. Qed.

(** The delta made before from the same configs changes too. *)
Lemma deprecated_changes_delta : exists x y d1 d2,
  delta_now (run pr_schema empty_heap [ CNew true false x; CNew true false y; CSub 0 1 ]) 2 = Ok d1 /\
  delta_now (run pr_schema empty_heap [ CNew true false x; CNew true false y; CSub 0 1; CFrom true true 0 ]) 2 = Ok d2 /\
  delta_nc pr_schema d1 <> delta_nc pr_schema d2.
Proof.
  exists dep_x, (e_config [ e_node "sys" [ e_leaf "host" "r1" ] ]). eexists. eexists. split; [vm_compute; reflexivity |].
  split; [vm_compute; reflexivity |]. vm_compute. discriminate.
Qed.

Lemma unchecked_changes : Changed pr_schema [ CNew false false pr_x ] (CFrom true false 0) 0.
Proof. changed. Qed.

Lemma extract_changes : Changed pr_schema [ CExtract false reply_get ] (CFrom true false 0) 0.
Proof. changed. Qed.

(** The entries of a leaf-list left by the filter happen to be its defaults. *)
Definition three_ntp : xml := e_config [ e_node "sys" [ e_leaf "ntp" "a"; e_leaf "ntp" "b"; e_leaf "ntp" "c" ] ].
Lemma filter_changes : Changed ex_schema [ CNew true false three_ntp; CFilter 0 (fun _ => XNodes [Some [0; 0]; Some [0; 1]]) ] (CFrom true false 1) 1.
Proof. changed. Qed.

Lemma ex_answers : Gentle ex_schema [] ex_history /\ Forall (fun r => exists v, r = Ok v) (answers (step ex_schema) empty_heap ex_history).
Proof.
  split.
  - apply (careful_gentle ex_schema ex_history empty_heap []); [apply Views_empty | constructor | exact ex_careful].
  - assert (E : forallb (fun r : res value => match r with Ok _ => true | _ => false end) (answers (step ex_schema) empty_heap ex_history) = true) by (vm_compute; reflexivity).
    rewrite forallb_forall in E. apply Forall_forall. intros r I. specialize (E r I). destruct r; [eauto | discriminate].
Qed.

Lemma ex_answers_differ : exists s l, answers (step s) empty_heap l <> answers (pstep s) [] l.
Proof.
  exists pr_schema, [ CNew true false dep_x; CNew true false dep_x; CFrom true true 0; CCompare CmpEq 0 1 ].
  vm_compute. discriminate.
Qed.
