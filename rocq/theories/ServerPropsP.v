(** C16: the delta executed by a server, examples and counterexamples. *)
From Coq Require Import String Ascii List Bool Arith ZArith Lia.
From Verif Require Import Base BaseP XmlM CalcM NetconfM ConfigM DataSpec DeltaSpec EditSpec ConfigSpec DataP ConfigP
  CompatP ServerSpec ServerP ExampleM ExampleDelta.
Import ListNotations.
Open Scope string_scope.
Open Scope list_scope.

Theorem server_reaches : forall o s a b,
  wfs s = true -> cases_ok s = true -> sty s = TRoot -> IsConfig s a -> IsConfig s b ->
  orderable s a = true -> orderable s b = true -> one_case s a = true -> one_case s b = true ->
  RootKept o s a b -> Switchable o s a b ->
  exists d r, delta_nc s (Delta a b o) = Ok d /\ serve s d (xkids a) = Some r /\ SameData s (e_config r) b.
Proof.
  intros o s a b W C R (Va & Ta & _) (Vb & Tb & _) Oa Ob Ca Cb RK SW.
  destruct (served o s a b W C R Va Vb (eq_trans Ta (eq_sym Tb)) Oa Ob Ca Cb RK SW) as (d & r & D1 & D2 & D3 & D4).
  exists d, r. split; [exact D1 |]. split; auto. rewrite Tb in D3, D4. apply Same_SameData; auto.
Qed.

(** Not a transcription: example data. A choice inside a case of another choice. *)
Definition ex_nested : snode :=
  s_root [ s_choice "a" [ s_case "a1" [ s_leaf "p"; s_choice "b" [ s_case "b1" [ s_leaf "q" ]; s_case "b2" [ s_leaf "r" ] ] ];
                          s_case "a2" [ s_leaf "t" ] ] ].
Definition ex_q : xml := e_config [ e_leaf "q" "1" ].
Definition ex_t : xml := e_config [ e_leaf "t" "1" ].

(** Case switch, reordering, creation and deletion in one pair *)
Definition ex_srv_a : xml :=
  e_config [ e_node "sys" [ e_leaf "host" "r1"; e_leaf "tcp-port" "22"; ex_rule "1" "permit"; ex_rule "2" "permit"; ex_rule "3" "deny" ] ].
Definition ex_srv_b : xml :=
  e_config [ e_node "sys" [ ex_rule "3" "deny"; ex_rule "2" "deny"; ex_rule "4" "deny"; e_leaf "udp-port" "69"; e_leaf "udp-opt" "x" ]; e_leaf "banner" "b" ].

Theorem server_reaches_remove : forall c r t n s a b,
  wfs s = true -> cases_ok s = true -> sty s = TRoot -> IsConfig s a -> IsConfig s b ->
  orderable s a = true -> orderable s b = true -> one_case s a = true -> one_case s b = true ->
  RootKept (Opts c r PDRemove t n) s a b ->
  exists d l, delta_nc s (Delta a b (Opts c r PDRemove t n)) = Ok d /\ serve s d (xkids a) = Some l /\ SameData s (e_config l) b.
Proof. intros. apply server_reaches; auto. left. reflexivity. Qed.

Lemma nested_choice : exists s a b d,
  wfs s = true /\ cases_ok s = true /\ sty s = TRoot /\ IsConfig s a /\ IsConfig s b /\
  orderable s a = true /\ orderable s b = true /\ one_case s a = true /\ one_case s b = true /\
  RootKept default_opts s a b /\ delta_nc s (config_sub b a) = Ok d /\ serve s d (xkids a) = None.
Proof.
  exists ex_nested, ex_q, ex_t. eexists. repeat (split; [vm_compute; reflexivity |]).
  split; [repeat split; vm_compute; reflexivity |]. split; [repeat split; vm_compute; reflexivity |].
  repeat (split; [vm_compute; reflexivity |]). split; [left; reflexivity |]. split; vm_compute; reflexivity.
Qed.

Lemma replace_type : exists o s a b d,
  o_type o = DReplace /\ wfs s = true /\ flat_choices s = true /\ cases_ok s = true /\ sty s = TRoot /\ IsConfig s a /\ IsConfig s b /\
  orderable s a = true /\ orderable s b = true /\ one_case s a = true /\ one_case s b = true /\
  RootKept o s a b /\ delta_nc s (Delta a b o) = Ok d /\ serve s d (xkids a) = None.
Proof.
  exists (Opts PCMerge PRMerge PDDelete DReplace 1), ex_schema, ex_tcp, ex_udp. eexists. repeat (split; [vm_compute; reflexivity |]).
  split; [repeat split; vm_compute; reflexivity |]. split; [repeat split; vm_compute; reflexivity |].
  repeat (split; [vm_compute; reflexivity |]). split; [left; reflexivity |]. split; vm_compute; reflexivity.
Qed.

Lemma root_replace : exists o s a b d r,
  wfs s = true /\ cases_ok s = true /\ sty s = TRoot /\ IsConfig s a /\ IsConfig s b /\ Comparable s a b /\ o_type o = DMinimum /\
  delta_nc s (Delta a b o) = Ok d /\ serve s d (xkids a) = Some r /\ ~ SameData s (e_config r) b.
Proof.
  exists (Opts PCMerge PRReplace PDDelete DMinimum 0), ex_schema, ex_lab1, ex_lab2. eexists. eexists.
  repeat (split; [vm_compute; reflexivity |]).
  split; [repeat split; vm_compute; reflexivity |]. split; [repeat split; vm_compute; reflexivity |].
  split. { split; [vm_compute; reflexivity |]. split; [vm_compute; reflexivity |].
    split; [apply inplace_Ends | apply (compat_NoSwitch true)]; vm_compute; reflexivity. }
  repeat (split; [vm_compute; reflexivity |]). intro H.
  match type of H with SameData ?s ?x ?y =>
    assert (V : valid s x = true) by (vm_compute; reflexivity);
    assert (V' : valid s y = true) by (vm_compute; reflexivity);
    destruct (SameData_Same s x y V V' eq_refl H) as [L1 L2] end.
  vm_compute in L1, L2. discriminate.
Qed.
