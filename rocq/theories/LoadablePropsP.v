(** Example data for C73. *)
From Coq Require Import String Ascii List Bool Arith Lia Permutation Sorted.
From Verif Require Import Base XmlM TagM LoadableM LoadableSpec LoadableP.
Import ListNotations.
Open Scope string_scope.
Open Scope list_scope.

Definition lo_version (v : string) : xml := named ncm "version" (Some v) [].
Definition lo_schemas : list schema :=
  [Schema [] "ietf-system" [lo_version "2014-08-06"]; Schema [lo_version "1"] "acl" []; Schema [] "ietf-system" [lo_version "2013-01-01"]].
Definition lo_caps : list string :=
  ["urn:ietf:params:netconf:base:1.1"; capability "urn:s" ["module=ietf-system"; "revision=2014-08-06"]; capability "urn:a" ["revision=1"; "module=acl"; "features=f"]].
Definition lo_server (caps : list string) (m l : answer) : server := Server caps (fun r => match r with AskMonitoring => m | AskLibrary => l end).
Definition lo_full : server := lo_server ((monitoring_ns ++ "?module=ietf-netconf-monitoring")%string :: lo_caps) (Replied (schemas_reply lo_schemas)) Raised.
Definition lo_plain : server := lo_server lo_caps Raised Raised.
Definition lo_lib : server := lo_server ((yang_lib_1_0 ++ "?revision=2016-04-09&module-set-id=1")%string :: lo_caps) Raised (Replied (library_reply ["acl"; "ietf-system"])).
Lemma lo_leaves : Forall Leaves lo_schemas.
Proof. repeat constructor; intros x H; cbn in H; repeat (destruct H as [<- | H]; [vm_compute; discriminate |]); destruct H. Qed.
Lemma lo_offers : Offers lo_full monitoring_ns. Proof. exists "?module=ietf-netconf-monitoring". left. reflexivity. Qed.

(** A check for texts that do not occur *)
Fixpoint occurs (p s : string) : bool :=
  RunningM.starts p s || match s with String _ r => occurs p r | EmptyString => false end.
Lemma occurs_ok : forall p s, occurs p s = false -> ~ Within p s.
Proof.
  intros p s H (a & b & E). revert s H E. induction a as [| c a IH]; intros s H E; subst s.
  - destruct (RegexP.starts_app p b) as (S & _). cbn [String.append] in H. destruct (p ++ b)%string; cbn [occurs] in H; rewrite S in H; discriminate.
  - cbn [String.append occurs] in H. apply orb_false_iff in H. destruct H as (_ & H). exact (IH _ H eq_refl).
Qed.
Ltac plain := cbn [Plain]; unfold PlainChar; cbn; lia.
Lemma lo_tells : Forall2 Tells lo_caps [None; Some "ietf-system"; Some "acl"].
Proof.
  apply Forall2_cons; [| apply Forall2_cons; [| apply Forall2_cons; [| apply Forall2_nil]]].
  - apply tl_none. apply occurs_ok. vm_compute. reflexivity.
  - apply (tl_module "urn:s" [] "ietf-system" ["revision=2014-08-06"]); [discriminate | plain | apply occurs_ok; vm_compute; reflexivity].
  - apply (tl_module "urn:a" ["revision=1"] "acl" ["features=f"]); [discriminate | plain | apply occurs_ok; vm_compute; reflexivity].
Qed.

(** Replies with identifiers without text *)
Definition lo_reply (l : list (option string)) : xml :=
  named nc "rpc-reply" None [named nc "data" None [named ncm "netconf-state" None [named ncm "schemas" None
    (map (fun t => named ncm "schema" None [named ncm "identifier" t []]) l)]]].
Definition lo_mixed_reply : xml := lo_reply [Some "acl"; None].
Definition lo_alone_reply : xml := lo_reply [None].
Definition lo_mixed : server := lo_server ((monitoring_ns ++ "?module=ietf-netconf-monitoring")%string :: lo_caps) (Replied lo_mixed_reply) Raised.
Definition lo_alone : server := lo_server ((monitoring_ns ++ "?module=ietf-netconf-monitoring")%string :: lo_caps) (Replied lo_alone_reply) Raised.
Lemma lo_at : forall l n t, nth_error l n = Some t -> At (lo_reply l) [0; 0; 0; n; 0] schemas_path (named ncm "identifier" t []).
Proof.
  intros l n t N. unfold lo_reply, schemas_path, tag.
  do 3 (eapply at_below; [reflexivity |]).
  apply (at_below (named ncm "schemas" None (map (fun t => named ncm "schema" None [named ncm "identifier" t []]) l)) n (named ncm "schema" None [named ncm "identifier" t []])).
  - unfold named. cbn [xkids]. rewrite nth_error_map, N. reflexivity.
  - eapply at_below; [reflexivity |]. exact (at_here (named ncm "identifier" t [])).
Qed.
Lemma lo_mixed_ok : Mixed lo_mixed_reply schemas_path.
Proof.
  exists [0; 0; 0; 1; 0], [0; 0; 0; 0; 0]. do 2 eexists. split; [discriminate |].
  split; [apply (lo_at _ 1 None); reflexivity |]. split; [apply (lo_at _ 0 (Some "acl")); reflexivity | reflexivity].
Qed.
Lemma lo_mixed_failed : Failed (sv_answer lo_mixed AskMonitoring) schemas_path.
Proof. right; right. exists lo_mixed_reply. split; [reflexivity | exact lo_mixed_ok]. Qed.
Lemma lo_kinds : Texts (schemas_reply lo_schemas) schemas_path /\ Mixed lo_mixed_reply schemas_path /\ Alone lo_alone_reply schemas_path.
Proof.
  split; [| split; [exact lo_mixed_ok |]].
  - destruct (reply_kinds schemas_path (schemas_reply lo_schemas)) as [T | [M | A]]; [discriminate | exact T | exfalso | exfalso].
    + apply mixed_none in M. vm_compute in M. discriminate.
    + apply alone_none in A; [| discriminate]. vm_compute in A. discriminate.
  - destruct (reply_kinds schemas_path lo_alone_reply) as [T | [M | A]]; [discriminate | exfalso | exfalso | exact A].
    + apply (T (named ncm "identifier" None [])); [| reflexivity]. apply (at_reached _ [0; 0; 0; 0; 0]). apply (lo_at [None] 0 None). reflexivity.
    + apply mixed_none in M. vm_compute in M. discriminate.
Qed.
