(** C94: deltas mention what differs, and nothing else. *)
From Coq Require Import String List Bool Arith ZArith Lia.
From Verif Require Import Base XmlM CalcM CalcP NetconfM ConfigM DataSpec DataP DeltaSpec ConfigSpec VocabSpec EditSpec SumSpec MentionSpec MentionP ExampleM.
Import ListNotations.
Open Scope string_scope.
Open Scope list_scope.

(** ** C94
    With preferred_replace='merge' and a diff_type other than 'replace', every node of a
    delta but its root is in one of the two configs only, or the configs differ there or
    below, or it is a key leaf, or an entry ordered by the user. *)
Theorem C94_only : forall o s a b d, o_replace o = PRMerge -> o_type o <> DReplace -> wfs s = true -> IsConfig s a -> IsConfig s b ->
  delta_nc s (Delta a b o) = Ok d -> forall p s' n, At s d p s' n -> p <> [] -> Worth s a b p s'.
Proof. exact delta_only. Qed.
Print Assumptions C94_only.

(** With all options, whatever the destination has is in the source or in the delta, with
    the same value. *)
Theorem C94_new : forall o s a b d, wfs s = true -> sty s = TRoot -> IsConfig s a -> IsConfig s b -> delta_nc s (Delta a b o) = Ok d ->
  forall p v, Holds s b p v -> Holds s a p v \/ Holds s d p v.
Proof. exact delta_new. Qed.
Print Assumptions C94_new.

(** With all options, the delta sees to whatever the source has and the destination has not. *)
Theorem C94_gone : forall o s a b d, wfs s = true -> IsConfig s a -> IsConfig s b -> delta_nc s (Delta a b o) = Ok d ->
  forall p, Present s a p -> Present s b p \/ Handled s a b d p.
Proof. exact delta_gone. Qed.
Print Assumptions C94_gone.

Definition me_opts : opts := Opts PCCreate PRMerge PDRemove DMinimum 0.
Definition me_path (t : string) : list uid := [("sys", KNone); (t, KNone)].
Definition me_ntp : list uid := [("sys", KNone); ("ntp", KText (Some "n1"))].
Ltac there := apply look_At; vm_compute; reflexivity.
Ltac nowhere := eapply absent_below; vm_compute; reflexivity.

(** The host changes, the mtu is new, the port stays and is not mentioned, n1 goes. *)
Example C94_case : wfs ex_schema = true /\ sty ex_schema = TRoot /\ IsConfig ex_schema ex_a /\ IsConfig ex_schema ex_b /\
  exists d, delta_nc ex_schema (Delta ex_a ex_b me_opts) = Ok d /\
    Present ex_schema d (me_path "host") /\ Holds ex_schema ex_b (me_path "mtu") (Some "9000") /\ ~ Present ex_schema ex_a (me_path "mtu") /\
    Holds ex_schema d (me_path "mtu") (Some "9000") /\ Present ex_schema ex_b (me_path "tcp-port") /\ ~ Present ex_schema d (me_path "tcp-port") /\
    Present ex_schema ex_a me_ntp /\ ~ Present ex_schema ex_b me_ntp.
Proof.
  split; [vm_compute; reflexivity |]. split; [reflexivity |]. split; [repeat split; vm_compute; reflexivity |]. split; [repeat split; vm_compute; reflexivity |].
  eexists. split; [vm_compute; reflexivity |]. split; [do 2 eexists; there |]. split; [do 2 eexists; split; [there | reflexivity] |]. split; [nowhere |].
  split; [do 2 eexists; split; [there | reflexivity] |]. split; [do 2 eexists; there |]. split; [nowhere |]. split; [do 2 eexists; there | nowhere].
Qed.

(** With diff_type='replace' and with preferred_replace='replace' a delta mentions the port,
    on which the configs agree. *)
Theorem C94_refuted : forall o, o = Opts PCMerge PRMerge PDDelete DReplace 0 \/ o = Opts PCMerge PRReplace PDDelete DMinimum 0 ->
  exists s a b d p s' n, wfs s = true /\ IsConfig s a /\ IsConfig s b /\ delta_nc s (Delta a b o) = Ok d /\ At s d p s' n /\ p <> [] /\ ~ Worth s a b p s'.
Proof.
  intros o O. exists ex_schema, ex_a, ex_b.
  assert (NW : forall s' na nb, At ex_schema ex_a (me_path "tcp-port") s' na -> At ex_schema ex_b (me_path "tcp-port") s' nb -> na = nb -> s_is_key (si s') = false -> s_user (si s') = false ->
            ~ Worth ex_schema ex_a ex_b (me_path "tcp-port") s').
  { intros s' na nb A B E K U. apply (same_not_worth _ _ _ _ s' na nb); auto. subst nb. apply same_refl. apply (At_valid _ _ _ _ _ (eq_refl : valid ex_schema ex_a = true) A). }
  destruct O as [-> | ->]; eexists; exists (me_path "tcp-port"); do 2 eexists; (split; [vm_compute; reflexivity |]); (split; [repeat split; vm_compute; reflexivity |]);
    (split; [repeat split; vm_compute; reflexivity |]); (split; [vm_compute; reflexivity |]); (split; [there |]); (split; [discriminate |]);
    (eapply NW; [there | there | reflexivity | reflexivity | reflexivity]).
Qed.
Print Assumptions C94_refuted.
