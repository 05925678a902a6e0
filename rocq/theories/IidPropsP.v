(** Example data for the properties of instance-identifiers. *)
From Coq Require Import String Ascii List Bool Arith Lia.
From Verif Require Import Base BaseP TagM TagSpec TagP RefM RefSpec RefP RefPropsP IidSpec IidP.
Import ListNotations.
Open Scope string_scope.
Open Scope list_scope.

Definition u_if := e_url ex_if.
Definition u_ip := e_url ex_ip.

Definition ex_items : list item :=
  [Step (Some "oc-if") "interfaces"; Step None "interface"; Pred (Some (None, "name")) dquo (of_s "a'b");
   Step (Some "oc-ip") "addr"; Pred None apos (of_s "x]/y"); Pred (Some (Some "oc-if", "k")) apos (of_s "1")].
Definition ex_sem : list sem :=
  [VStep u_if "interfaces"; VStep u_if "interface"; VKey u_if "name" (of_s "a'b");
   VStep u_ip "addr"; VSelf (of_s "x]/y"); VKey u_if "k" (of_s "1")].
(** The same path with other prefixes, module names and quotes. *)
Definition other_map : nsmap := [(Some "x", u_if); (None, u_if); (Some "oc-if", u_ip)].
Definition other_items : list item :=
  [Step (Some "x") "interfaces"; Step (Some "openconfig-interfaces") "interface"; Pred (Some (Some "x", "name")) apos (of_s "a''b");
   Step (Some "oc-if") "addr"; Pred None dquo (of_s "x]/y"); Pred (Some (Some "x", "k")) apos (of_s "1")].

Ltac letters := let H := fresh in intros ? H; cbn in H; repeat (destruct H as [H|H]; [subst; vm_compute; tauto|]); contradiction H.
Ltac yang := split; [eexists _, _; split; [reflexivity | vm_compute; tauto] | letters].
Ltac inside := repeat first [apply INil | apply IPair | apply IChar; [discriminate|]].

Lemma ex_denotes : Denotes ref_table iid_map None ex_items ex_sem.
Proof.
  repeat first [apply DNil | eapply DStep | eapply DKey | eapply DSelf];
    try yang; try (left; reflexivity); try (right; reflexivity); try solve [unfold of_s; cbn; inside];
    first [apply Resolved_bare; reflexivity | apply Resolved_prefix; [yang | left; vm_compute; tauto]].
Qed.

Lemma other_denotes : Denotes ref_table other_map None other_items ex_sem.
Proof.
  repeat first [apply DNil | eapply DStep | eapply DKey | eapply DSelf];
    try yang; try (left; reflexivity); try (right; reflexivity); try solve [unfold of_s; cbn; inside];
    first [apply Resolved_bare; reflexivity | apply Resolved_prefix; [yang | first [left; vm_compute; tauto |
      right; split; [vm_compute; intuition discriminate | exists ex_if; split; [vm_compute; tauto | split; reflexivity]]]]].
Qed.

Ltac plain_end := let b := fresh in let E := fresh in intros b E; apply (f_equal (@rev ascii)) in E; rewrite rev_app_distr in E; discriminate E.
Ltac nodot := vm_compute; intuition discriminate.

Lemma ex_tame : Forall Tame ex_items /\ Forall Tame other_items.
Proof. split; repeat constructor; try plain_end; nodot. Qed.

Lemma ex_maps : Nsmap iid_map /\ Nsmap other_map.
Proof.
  split; (split; [simpl; repeat (apply NoDup_cons; [vm_compute; intuition discriminate|]); apply NoDup_nil|]);
    intros p u H; simpl in H; repeat (destruct H as [H|H]; [first [discriminate H | injection H as <- <-; split; [discriminate | nodot]]|]);
    destruct H.
Qed.

Lemma ex_prefixes : Prefixes ref_table None /\ Prefixes ref_table (Some other_map).
Proof.
  split; cbn.
  - intros e H. repeat (destruct H as [<-|H]; [yang|]). destruct H.
  - intros p u H. repeat (destruct H as [H|H]; [first [discriminate H | injection H as <- <-; yang]|]). destruct H.
Qed.

Lemma ex_reach : forall u, In u (urls ex_sem) -> Reach ref_table (Some other_map) u.
Proof.
  intros u H. cbn in H.
  repeat (destruct H as [<-|H]; [first [exists "x"; vm_compute; tauto | exists "oc-if"; vm_compute; tauto]|]). destruct H.
Qed.

Lemma ex_convert :
  iid_convert ref_table (RNode (etree u_if "peer") iid_map (Some (to_s (show_items ex_items)))) (Some other_map) =
    Ok "/x:interfaces/x:interface[x:name='a''b']/oc-if:addr[.='x]/y'][x:k='1']" /\
  iid_convert ref_table (RNode (etree u_if "peer") iid_map (Some (to_s (show_items ex_items)))) (Some [(Some "x", u_if)]) =
    Err ConfigError /\
  ref_same ref_table DInstance (RNode (etree u_if "peer") iid_map (Some (to_s (show_items ex_items))))
    (RNode (etree u_if "peer") other_map (Some (to_s (show_items other_items)))) = Ok true.
Proof. repeat split; vm_compute; reflexivity. Qed.

(** ** Where rewriting goes wrong *)

(** The rewritten text does not denote [s] in any reading. *)
Definition Lost (T : table) (to : option nsmap) (text : string) (s : list sem) : Prop :=
  forall l', to_s (show_items l') = text -> ~ Denotes T (to_map to) None l' s.

Definition here (l : list item) : rnode := RNode (etree u_if "peer") iid_map (Some (to_s (show_items l))).

Lemma ends_ne : forall c (p t x : list ascii) n, c :: p ++ t = x -> n <= length t ->
  firstn n (rev t) = firstn n (rev x).
Proof.
  intros c p t x n <- L. change (c :: p ++ t) with ([c] ++ (p ++ t)). rewrite app_assoc, rev_app_distr, firstn_app, rev_length.
  replace (n - length t) with 0 by lia. cbn. rewrite app_nil_r. reflexivity.
Qed.

Definition dot_items := [Step (Some "oc-if") "a.b"].
Definition dot_sem := [VStep u_if "a.b"].
Lemma dot_lost : Denotes ref_table iid_map None dot_items dot_sem /\
  exists text, iid_convert ref_table (here dot_items) (Some iid_map) = Ok text /\
    Lost ref_table (Some iid_map) text dot_sem.
Proof.
  split.
  - apply DStep; [apply Resolved_prefix; [yang | left; vm_compute; tauto] | yang | apply DNil].
  - eexists. split; [vm_compute; reflexivity|]. intros l' E D.
    inversion D as [|d p n u r s R Y D' E1 E2 E3| | |]; subst. inversion D'; subst. inversion R as [u E4|p' u Yp Pp E4 E5]; subst; [discriminate|].
    apply (f_equal of_s) in E. rewrite of_to in E. unfold show_items in E. cbn [flat_map show_item qname] in E.
    rewrite app_nil_r in E. apply (ends_ne _ _ _ _ 3) in E; [discriminate E | cbn; lia].
Qed.

Definition nth_items := [Step (Some "oc-if") "a"; Nth "1"].
Definition nth_sem := [VStep u_if "a"; VNth "1"].
Lemma nth_lost : Denotes ref_table iid_map None nth_items nth_sem /\
  exists text, iid_convert ref_table (here nth_items) (Some iid_map) = Ok text /\
    Lost ref_table (Some iid_map) text nth_sem.
Proof.
  split.
  - apply DStep; [apply Resolved_prefix; [yang | left; vm_compute; tauto] | yang |].
    apply DNth; [split; [discriminate | letters] | apply DNil].
  - eexists. split; [vm_compute; reflexivity|]. intros l' E D.
    inversion D as [|d p n u r s R Y D' E1 E2 E3| | |]; subst. inversion D' as [| | | |d n r' s' Hn D'' E4 E5 E6]; subst. inversion D''; subst.
    inversion R as [u E4|p' u Yp Pp E4 E5]; subst; [discriminate|].
    apply (f_equal of_s) in E. rewrite of_to in E. unfold show_items in E. cbn [flat_map show_item qname] in E.
    rewrite app_nil_r in E. change (sl :: ((chars p' ++ ":"%char :: chars "a") ++ chars "[1]") = of_s "/oc-if:a[oc-if:1]") in E.
    rewrite <- app_assoc in E. apply (ends_ne _ _ _ _ 3) in E; [discriminate E | cbn; lia].
Qed.

(** A value that ends in an apostrophe. *)
Definition end_items := [Step (Some "oc-if") "a"; Pred (Some (None, "k")) dquo (of_s "it'")].
Definition end_sem := [VStep u_if "a"; VKey u_if "k" (of_s "it'")].
Lemma end_once : exists l', Denotes ref_table iid_map None end_items end_sem /\ Forall Tame end_items /\
  iid_convert ref_table (here end_items) (Some iid_map) = Ok (to_s (show_items l')) /\
  Denotes ref_table iid_map None l' end_sem /\ iid_convert ref_table (here l') (Some iid_map) = Err ConfigError.
Proof.
  exists [Step (Some "oc-if") "a"; Pred (Some (Some "oc-if", "k")) apos (of_s "it''")].
  assert (D : forall p q b, q = apos \/ q = dquo -> Inside q b (of_s "it'") -> p = None \/ p = Some "oc-if" ->
    Denotes ref_table iid_map None [Step (Some "oc-if") "a"; Pred (Some (p, "k")) q b] end_sem).
  { intros p q b Q I P. apply DStep; [apply Resolved_prefix; [yang | left; vm_compute; tauto] | yang |].
    apply DKey; [| yang | exact Q | exact I | apply DNil].
    destruct P as [-> | ->]; [apply Resolved_bare; reflexivity | apply Resolved_prefix; [yang | left; vm_compute; tauto]]. }
  split; [apply D; [right; reflexivity | unfold of_s; cbn; inside | left; reflexivity]|].
  split; [repeat constructor; try plain_end; nodot|].
  split; [vm_compute; reflexivity|].
  split; [apply D; [left; reflexivity | unfold of_s; cbn; inside | right; reflexivity]|].
  vm_compute. reflexivity.
Qed.

(** Two readings. *)
Lemma one_meaning : forall T m l l' s s', Unambiguous T -> Nsmap m -> Denotes T m None l s -> Denotes T m None l' s' ->
  to_s (show_items l) = to_s (show_items l') -> l = l' /\ s = s'.
Proof.
  intros T m l l' s s' HU Hm D D' E. apply (f_equal of_s) in E. rewrite !of_to in E.
  apply one_reading in E; [|eapply Denotes_shape; eassumption|eapply Denotes_shape; eassumption]. subst l'.
  split; [reflexivity|]. exact (denotes_fun T m HU Hm None l s D s' D').
Qed.
