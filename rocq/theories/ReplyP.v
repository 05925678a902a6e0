(** Proofs about the namespaces of replies. *)
From Coq Require Import String Ascii List Bool.
From Verif Require Import Base TagM TagSpec TagP ReplyM ReplySpec.
Import ListNotations.
Open Scope string_scope.
Open Scope list_scope.

Lemma scanned_prefix : forall T u, prefix_of (Some T) u = Ok (get_prefix T u).
Proof. intros T u. unfold prefix_of, get_prefix. destruct (find _ specials); reflexivity. Qed.
Lemma scanned_ns : forall T urls, namespaces_of (Some T) urls = Ok (get_ns T urls).
Proof.
  intros T urls. unfold namespaces_of, get_ns.
  assert (E : mapM (fun u => let! p := prefix_of (Some T) u in Ok (u, p)) urls = Ok (map (fun u => (u, get_prefix T u)) urls)).
  { induction urls as [| u r IH]; [reflexivity |]. cbn [mapM map]. rewrite scanned_prefix. cbn [bind]. rewrite IH. reflexivity. }
  rewrite E. reflexivity.
Qed.
Lemma built_in_find : forall u, (exists e, find (fun e => String.eqb (e_url e) u) specials = Some e) <-> BuiltIn u.
Proof.
  intros u. split.
  - intros (e & H). apply find_some in H as [I E]. apply String.eqb_eq in E. subst u.
    cbn in I. destruct I as [<- | [<- | [<- | [<- | []]]]]; unfold BuiltIn; cbn; auto 6.
  - unfold BuiltIn. cbn [In]. intros [<- | [<- | [<- | [<- | []]]]]; eexists; reflexivity.
Qed.
Lemma unscanned_prefix : forall u, (BuiltIn u -> exists p, prefix_of None u = Ok (Some p)) /\ (~ BuiltIn u -> prefix_of None u = Err ValueError).
Proof.
  intros u. unfold prefix_of. destruct (find (fun e => String.eqb (e_url e) u) specials) as [e |] eqn:F; split.
  - intros _. eexists. reflexivity.
  - intros N. exfalso. apply N. apply built_in_find. exists e. exact F.
  - intros B. apply built_in_find in B as (e & E). rewrite F in E. discriminate.
  - reflexivity.
Qed.
Lemma built_in_dec : forall u, {BuiltIn u} + {~ BuiltIn u}.
Proof. intros u. unfold BuiltIn. apply in_dec. exact string_dec. Qed.
Lemma unscanned_ns : forall urls,
  ((forall u, In u urls -> BuiltIn u) -> exists n, namespaces_of None urls = Ok n) /\
  ((exists u, In u urls /\ ~ BuiltIn u) -> namespaces_of None urls = Err ValueError).
Proof.
  intros urls. unfold namespaces_of.
  assert (A : ((forall u, In u urls -> BuiltIn u) -> exists l, mapM (fun u => let! p := prefix_of None u in Ok (u, p)) urls = Ok l) /\
              ((exists u, In u urls /\ ~ BuiltIn u) -> mapM (fun u => let! p := prefix_of None u in Ok (u, p)) urls = Err ValueError)).
  { induction urls as [| u r [IH1 IH2]].
    - split; [intros _; eexists; reflexivity | intros (u & [] & _)].
    - destruct (unscanned_prefix u) as [P1 P2]. split.
      + intros H. destruct (P1 (H u (or_introl eq_refl))) as (p & E). destruct IH1 as (l & L); [intros v Hv; apply H; right; exact Hv |].
        cbn [mapM]. rewrite E. cbn [bind]. rewrite L. cbn [bind]. eexists. reflexivity.
      + intros (v & I & N). cbn [mapM]. destruct (built_in_dec u) as [B | B].
        * destruct (P1 B) as (p & E). rewrite E. cbn [bind]. rewrite IH2; [reflexivity |]. exists v. split; [| exact N].
          destruct I as [<- | I]; [contradiction | exact I].
        * rewrite (P2 B). reflexivity. }
  destruct A as [A1 A2]. split.
  - intros H. destruct (A1 H) as (l & ->). cbn [bind]. eexists. reflexivity.
  - intros H. rewrite (A2 H). reflexivity.
Qed.

Lemma received_named : forall notify T r, Named notify r ->
  received notify T r = (let! n := namespaces_of T (r_urls r) in Ok (Answer (r_kind r) (r_urls r) (Some n))).
Proof. intros notify T r [K | [K ->]]; unfold received; rewrite K; reflexivity. Qed.
Lemma received_other : forall notify T r, ~ Named notify r -> received notify T r = Ok r.
Proof.
  intros notify T r N. unfold received, Named in *. destruct (r_kind r) eqn:K; [exfalso; apply N; auto | | reflexivity].
  destruct notify; [exfalso; apply N; auto | reflexivity].
Qed.

Theorem reply_paths : forall notify T r, Named notify r -> PrefixesDistinct T -> NoNumbered T -> NoDup (r_urls r) ->
  exists r' n, received notify (Some T) r = Ok r' /\ r_kind r' = r_kind r /\ r_urls r' = r_urls r /\
  xpath_namespaces None r' = Ok n /\ (forall g, xpath_namespaces (Some g) r' = Ok g) /\
  map snd n = r_urls r /\ NoDup (map fst n) /\
  forall p u, In (p, u) n -> forall e, In e (T ++ specials) -> e_url e = u ->
    exists e', In e' (T ++ specials) /\ e_url e' = u /\ e_prefix e' = p.
Proof.
  intros notify T r N P Q D. destruct (get_ns_exact T (r_urls r) P Q D) as (A & B & C).
  exists (Answer (r_kind r) (r_urls r) (Some (get_ns T (r_urls r)))), (get_ns T (r_urls r)).
  rewrite (received_named _ _ _ N), scanned_ns. cbn [bind].
  split; [reflexivity |]. split; [reflexivity |]. split; [reflexivity |]. split; [reflexivity |]. split; [intros g; reflexivity |].
  split; [exact A |]. split; [exact B | exact C].
Qed.
Theorem reply_unscanned : forall notify r,
  (received notify None r = Err ValueError <-> Named notify r /\ exists u, In u (r_urls r) /\ ~ BuiltIn u) /\
  (forall e, received notify None r = Err e -> e = ValueError).
Proof.
  intros notify r. destruct (unscanned_ns (r_urls r)) as [U1 U2].
  assert (D : Named notify r \/ ~ Named notify r).
  { unfold Named. destruct (r_kind r), notify; ((left; tauto) || (right; intros [X | [X Y]]; discriminate) || (left; auto)). }
  destruct D as [N | N].
  - rewrite (received_named _ _ _ N).
    assert (E : (forall u, In u (r_urls r) -> BuiltIn u) \/ exists u, In u (r_urls r) /\ ~ BuiltIn u).
    { clear. induction (r_urls r) as [| u l IH]; [left; intros u [] |]. destruct (built_in_dec u) as [B | B].
      - destruct IH as [IH | (v & I & NB)]; [left; intros v [<- | I]; auto | right; exists v; split; [right; exact I | exact NB]].
      - right. exists u. split; [left; reflexivity | exact B]. }
    destruct E as [E | E].
    + destruct (U1 E) as (n & ->). cbn [bind]. split; [| discriminate]. split; [discriminate |]. intros (_ & u & I & B). exfalso. apply B. apply E. exact I.
    + rewrite (U2 E). cbn [bind]. split; [split; auto | intros e H; injection H as <-; reflexivity].
  - rewrite (received_other _ _ _ N). split; [| discriminate]. split; [discriminate | intros (H & _); contradiction].
Qed.
Theorem reply_other : forall notify T r, ~ Named notify r -> r_ns r = None ->
  received notify T r = Ok r /\ xpath_namespaces None r = Err AttributeError.
Proof. intros notify T r N E. split; [apply received_other; exact N | unfold xpath_namespaces; rewrite E; reflexivity]. Qed.
