(** Proofs for C69 and C70: unknown names and what follows a name. *)
From Coq Require Import String Ascii List Bool Arith Lia.
From Verif Require Import Base BaseP XmlM TagM TagSpec TagP XPathM XPathP DepictM DepictSpec DepictP PrintM PrintSpec PrintP.
Import ListNotations.
Open Scope string_scope.
Open Scope list_scope.
Open Scope nat_scope.

Lemma known_maps : forall prefix l m u, Known l -> model_init prefix l = Ok m -> In (prefix, u) l ->
  m_prefixes m = l /\ m_urls m = map (fun '(a, b) => (b, a)) l.
Proof.
  intros prefix l m u (K1 & K2 & K3) E Hin. unfold model_init, model_ns in E.
  change (fold_left (fun d '(p, u0) => dset String.eqb p u0 d) l []) with (set_all l) in E.
  rewrite (set_all_id l K1) in E. destruct (assoc String.eqb prefix l); [| discriminate]. cbn [bind] in E. injection E as <-. cbn.
  split; [reflexivity |].
  assert (EQ : forall (q d : list (string * string)), fold_left (fun d '(p0, u0) => dset String.eqb u0 p0 d) q d =
                           fold_left (fun d '(k, v0) => dset String.eqb k v0 d) (map (fun '(a, b) => (b, a)) q) d).
  { induction q as [| (a, b) q IH]; intros d; cbn; auto. }
  rewrite EQ. fold (set_all (map (fun '(a, b) => (b, a)) l)). apply set_all_id.
  rewrite map_map. replace (map (fun x => fst (let '(a, b) := x in (b, a))) l) with (map snd l); auto. apply map_ext. intros (a, b). reflexivity.
Qed.

Lemma rx_no_colon : forall p n, ~ In ":"%char (chars n) -> rx_prefix (p ++ ":")%string n = None.
Proof.
  induction p as [| a p IH]; intros [| b n] H; cbn [append rx_prefix]; try reflexivity.
  - destruct (Ascii.eqb_spec ":" b) as [<- |]; [exfalso; apply H; left; reflexivity | reflexivity].
  - destruct (Ascii.eqb a "." || Ascii.eqb a b); [| reflexivity]. apply IH. intros G. apply H. right. exact G.
Qed.

Lemma unknown_names : forall prefix l m u0 n, Known l -> model_init prefix l = Ok m -> In (prefix, u0) l -> Identifier n ->
  (forall p, Identifier p -> ~ In p (map fst l) -> prefix_to_url m (p ++ ":" ++ n)%string = Err KeyError) /\
  (forall u, Word u -> ~ In u (map snd l) -> url_to_prefix m (etree u n) = Err KeyError) /\
  url_to_prefix m n = Ok n /\ remove_model_prefix m n = n.
Proof.
  intros prefix l m u0 n K E H0 Hn. destruct (known_maps prefix l m u0 K E H0) as (MP & MU). split; [| split; [| split]].
  - intros p Hp N. unfold prefix_to_url. change (p ++ ":" ++ n)%string with (p ++ String ":" n)%string.
    rewrite split_at_cut by (apply Identifier_colon; exact Hp). destruct (split_at ":" n) as [h t]. rewrite MP.
    rewrite (proj2 (assoc_None String.eqb string_eqb_ok p l) N). reflexivity.
  - intros u Hu N. unfold url_to_prefix.
    rewrite re_brace_app; [| exact Hu | apply Identifier_Word; exact Hn | apply Identifier_brace; exact Hn]. rewrite MU.
    rewrite (proj2 (assoc_None String.eqb string_eqb_ok u _)); [reflexivity |]. rewrite map_map.
    intros G. apply N. apply in_map_iff in G. destruct G as ((a, b) & <- & G). apply in_map_iff. exists (a, b). auto.
  - unfold url_to_prefix, re_brace. rewrite line_plain by (apply Identifier_line; exact Hn).
    destruct n as [| a [| b n]]; try reflexivity. destruct (Ascii.eqb_spec a "{") as [-> |]; [| reflexivity].
    exfalso. apply (Identifier_not _ "{"%char Hn); [cbn; tauto | left; reflexivity].
  - unfold remove_model_prefix. rewrite line_plain by (apply Identifier_line; exact Hn).
    rewrite rx_no_colon by (apply Identifier_colon; exact Hn). reflexivity.
Qed.

Lemma tail_text : forall x ty, get_attr "type" x = Some ty ->
  (model_tail x = None <-> ShownType ty x = None /\ get_attr "if-feature" x = None) /\
  forall f sp, model_tail x = Some f ->
    f sp = (match ShownType ty x with Some d => sp ++ d | None => "" end ++
            match get_attr "if-feature" x with Some g => " {" ++ g ++ "}?" | None => "" end)%string.
Proof.
  intros x ty E. unfold model_tail, ShownType. rewrite E. cbn [eq_opt].
  destruct (String.eqb ty "anyxml" || String.eqb ty "anydata").
  - split; [split; [discriminate | intros [H _]; discriminate] |]. intros f sp H. injection H as <-. reflexivity.
  - destruct (get_attr "datatype" x) as [d |]; [split; [split; [discriminate | intros [H _]; discriminate] |]; intros f sp H; injection H as <-; reflexivity |].
    destruct (get_attr "if-feature" x) as [g |]; [split; [split; [discriminate | intros [_ H]; discriminate] |]; intros f sp H; injection H as <-; reflexivity |].
    split; [split; auto | discriminate].
Qed.
