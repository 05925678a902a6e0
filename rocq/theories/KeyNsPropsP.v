(** Examples for the properties of namespaces in the key attribute. *)
From Coq Require Import String Ascii List Bool Arith.
From Verif Require Import Base XmlM CalcM NetconfM TagM TagSpec DepictSpec RefM KeyNsM KeyNsSpec KeyNsP.
Import ListNotations.
Open Scope string_scope.
Open Scope list_scope.

(** A user-ordered list of rules with keys name and seq. *)
Definition kn_url : string := "urn:acl".
Definition kn_tag : string := etree kn_url "rule".
Definition kn_keys : list string := [etree kn_url "name"; etree kn_url "seq"].
Definition kn_rule (n q : string) : xml :=
  Elem kn_tag None [] [Elem (etree kn_url "name") (Some n) [] []; Elem (etree kn_url "seq") (Some q) [] [];
                       Elem (etree kn_url "action") (Some "permit") [] []].
Definition kn_uid (n q : string) : uid := (kn_tag, KTup [Some n; Some q]).
Definition kn_sum : list ent := [(kn_uid "a" "10", kn_rule "a" "10"); (kn_uid "a" "20", kn_rule "a" "20")].

(** Three scopes: a default namespace, a prefix, and both. *)
Definition kn_default : nsmap := [(None, kn_url); (Some "nc", "urn:netconf")].
Definition kn_prefix : nsmap := [(Some "acl", kn_url); (None, "urn:netconf")].
Definition kn_both : nsmap := [(Some "acl", kn_url); (None, kn_url)].

Fixpoint nodup_o (l : list (option string)) : bool :=
  match l with [] => true | x :: r => negb (existsb (ostr_eqb x) r) && nodup_o r end.
Lemma nodup_o_ok : forall l, nodup_o l = true -> NoDup l.
Proof.
  induction l as [| x l IH]; cbn; intro H; constructor; apply andb_true_iff in H; destruct H as [A B]; auto.
  intro I. apply negb_true_iff in A. assert (X : existsb (ostr_eqb x) l = true).
  { apply existsb_exists. exists x. split; auto. apply RefP.ostr_eqb_eq. reflexivity. }
  congruence.
Qed.

Definition ncname (n : string) : bool :=
  negb (String.eqb n "") && forallb (fun c => negb (existsb (Ascii.eqb c) (newline :: chars " :{}="))) (chars n) &&
  match n with EmptyString => false | String a _ => negb (existsb (Ascii.eqb a) (chars "0123456789")) end.
Lemma not_among : forall c l, negb (existsb (Ascii.eqb c) l) = true -> ~ In c l.
Proof.
  intros c l H I. apply negb_true_iff in H. assert (X : existsb (Ascii.eqb c) l = true).
  { apply existsb_exists. exists c. split; auto. apply Ascii.eqb_refl. }
  congruence.
Qed.
Lemma ncname_ok : forall n, ncname n = true -> NCName n.
Proof.
  intros n H. unfold ncname in H. apply andb_true_iff in H. destruct H as [H C]. apply andb_true_iff in H.
  destruct H as [A B]. rewrite forallb_forall in B.
  assert (G : forall c, In c (chars n) -> ~ In c (newline :: chars " :{}=")) by (intros c I; apply not_among; auto).
  split; [split |split].
  - intro E. subst n. discriminate.
  - intros c I J. apply (G c I). cbn in J |- *. tauto.
  - intro I. apply (G _ I). cbn. tauto.
  - destruct n as [| a r]; [discriminate |]. apply not_among. exact C.
Qed.

Definition scope (m : nsmap) : bool :=
  nodup_o (map fst m) &&
  forallb (fun kv => match fst kv with None => true | Some p => ncname p end &&
                     negb (String.eqb (snd kv) "") && negb (existsb (Ascii.eqb newline) (chars (snd kv)))) m.
Lemma scope_ok : forall m, scope m = true -> Scope m.
Proof.
  intros m H. unfold scope in H. apply andb_true_iff in H. destruct H as [A B]. rewrite forallb_forall in B.
  assert (G : forall p u, In (p, u) m -> match p with None => True | Some p => NCName p end /\ Word u).
  { intros p u I. specialize (B _ I). cbn [fst snd] in B. apply andb_true_iff in B. destruct B as [B B3].
    apply andb_true_iff in B. destruct B as [B1 B2]. split.
    - destruct p; auto. apply ncname_ok. exact B1.
    - split; [intro E; subst u; discriminate | apply not_among; exact B3]. }
  constructor.
  - apply nodup_o_ok. exact A.
  - intros p u I. exact (proj1 (G _ _ I)).
  - intros p u I. exact (proj2 (G _ _ I)).
Qed.

Lemma kn_scopes : Scope kn_default /\ Scope kn_prefix /\ Scope kn_both.
Proof. split; [| split]; apply scope_ok; reflexivity. Qed.

Lemma kn_chosen : Chosen kn_default kn_url None /\ Chosen kn_prefix kn_url (Some "acl") /\ Chosen kn_both kn_url None.
Proof. split; [| split]; apply chosen_some; reflexivity. Qed.

(** Keys below a default namespace, read where a prefix is declared besides it. *)
Lemma kn_known : Forall (Known (fun _ => kn_default) kn_both) kn_keys.
Proof.
  constructor; [| constructor; [| constructor]].
  - exists kn_url, "name", None. split; [reflexivity |]. split; [apply ncname_ok; reflexivity |].
    split; [apply kn_scopes |]. split; [apply kn_chosen |]. cbn. tauto.
  - exists kn_url, "seq", None. split; [reflexivity |]. split; [apply ncname_ok; reflexivity |].
    split; [apply kn_scopes |]. split; [apply kn_chosen |]. cbn. tauto.
Qed.

Lemma kn_texts :
  (forall k a b, In k kn_keys -> In a (xkids (kn_rule "a" "20")) -> In b (xkids (kn_rule "a" "20")) ->
     xtag a = k -> xtag b = k -> xtext a = xtext b) /\
  (forall c, In c (xkids (kn_rule "a" "20")) -> In (xtag c) kn_keys -> exists v, xtext c = Some v /\ ~ In "'"%char (chars v)).
Proof.
  split.
  - intros k a b _ Ha Hb <- E. cbn in Ha, Hb.
    destruct Ha as [<- | [<- | [<- | []]]]; destruct Hb as [<- | [<- | [<- | []]]]; try reflexivity; discriminate E.
  - intros c Hc _. cbn in Hc. destruct Hc as [<- | [<- | [<- | []]]]; eexists; (split; [reflexivity |]); apply not_among; reflexivity.
Qed.

(** An entry that follows the second rule and has its own declarations. *)
Definition kn_item (key : string) : xml :=
  Elem kn_tag None [(key_tag, key)] (xkids (kn_rule "b" "5")).

Lemma kn_mixed : exists mp m s1 s2,
  Scope mp /\ Scope m /\ In kn_url (map snd mp) /\ In kn_url (map snd m) /\
  ns_pred_string (fun _ => mp) kn_keys (kn_rule "a" "20") = Ok s1 /\
  ns_pred_string (fun _ => m) kn_keys (kn_rule "a" "20") = Ok s2 /\
  (ns_ref_sibling m (kn_item s2) kn_sum = Ok (kn_uid "a" "20") /\ ns_ref_sibling mp (kn_item s1) kn_sum = Ok (kn_uid "a" "20")) /\
  ns_ref_sibling m (kn_item s1) kn_sum = Err SyntaxError /\
  ns_ref_sibling mp (kn_item s2) kn_sum = Err ConfigDeltaError.
Proof.
  exists kn_prefix, kn_default. eexists. eexists.
  split; [apply kn_scopes |]. split; [apply kn_scopes |]. split; [cbn; tauto |]. split; [cbn; tauto |].
  repeat split; vm_compute; reflexivity.
Qed.
