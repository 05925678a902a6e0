(** Proofs: all attributes of a schema node, for C68. *)
From Coq Require Import String Ascii List Bool Arith Lia.
From Verif Require Import Base BaseP XmlM TagM TagSpec DepictM DepictSpec DepictP DepictAttrSpec.
Import ListNotations.
Open Scope string_scope.
Open Scope list_scope.

Lemma contains_iff : forall w s, contains w s = true <-> exists a b, s = (a ++ w ++ b)%string.
Proof.
  assert (P : forall w s, String.prefix w s = true <-> exists b, s = (w ++ b)%string).
  { induction w as [| c w IH]; intros s.
    - destruct s; (split; [intros _; eexists; reflexivity | reflexivity]).
    - destruct s as [| d s]; [split; [discriminate | intros (b & H); discriminate H] |].
      change (String.prefix (String c w) (String d s)) with (if ascii_dec c d then String.prefix w s else false).
      destruct (ascii_dec c d) as [-> | N].
      + split; [intros H; apply IH in H | intros H; apply IH]; destruct H as (b & H); exists b; [cbn; congruence | injection H as ->; reflexivity].
      + split; [discriminate |]. intros (b & H). injection H as -> _. contradiction. }
  intros w s. induction s as [| d s IH]; cbn [contains]; rewrite orb_true_iff, P.
  - split; [intros [(b & H) | H]; [exists "", b; exact H | discriminate] |].
    intros (a & b & H). left. destruct a; [exists b; exact H | discriminate].
  - rewrite IH. split.
    + intros [(b & H) | (a & b & ->)]; [exists "", b; exact H | exists (String d a), b; reflexivity].
    + intros (a & b & H). destruct a as [| c a]; [left; exists b; exact H |].
      right. injection H as -> ->. exists a, b. reflexivity.
Qed.

Lemma Others_iff : forall own a l, Others own a l <-> l = filter (fun f => negb (mem String.eqb f own)) a.
Proof.
  intros own a. induction a as [| f a IH]; intros l; cbn [filter].
  - split; [intros H; inversion H; reflexivity | intros ->; constructor].
  - destruct (mem String.eqb f own) eqn:E; cbn [negb].
    + apply (mem_In String.eqb string_eqb_ok) in E. split.
      * intros H. inversion H; subst; [contradiction | apply IH; assumption].
      * intros H. apply o_drop; [exact E | apply IH; exact H].
    + assert (N : ~ In f own) by (intros G; apply (mem_In String.eqb string_eqb_ok) in G; congruence). split.
      * intros H. inversion H; subst; [f_equal; apply IH; assumption | contradiction].
      * intros ->. apply o_keep; [exact N | apply IH; reflexivity].
Qed.

Definition features (i : yinfo) : list string :=
  y_features i ++ match y_augment i with
                  | Some a => filter (fun f => negb (mem String.eqb f (y_features i))) a
                  | None => []
                  end.
Lemma Features_iff : forall i l, Features i l <-> l = features i.
Proof.
  intros i l. unfold features. split.
  - intros H. inversion H as [E | a l' E O]; subst; rewrite E; [rewrite app_nil_r; reflexivity |].
    apply Others_iff in O. subst. reflexivity.
  - intros ->. destruct (y_augment i) as [a |] eqn:E.
    + apply (f_both i a); [exact E | apply Others_iff; reflexivity].
    + rewrite app_nil_r. apply f_own. exact E.
Qed.

Definition ext1 (ns : list (string * string)) (e : kword * option string) : list (string * string) :=
  let '(k, a) := e in
  match k with
  | KwExt m w =>
      if contains "tailf" m then
        match assoc String.eqb m ns with
        | Some u => [("{" ++ u ++ "}" ++ w, match a with Some v => v | None => "" end)%string]
        | None => []
        end
      else []
  | Kw _ => []
  end.
Lemma ext1_iff : forall ns e n v, Annotates ns e n v <-> ext1 ns e = [(n, v)].
Proof.
  intros ns (k, a) n v. unfold Annotates. cbn [fst snd]. split.
  - intros (x & b & w & u & -> & U & -> & ->). cbn [ext1].
    rewrite (proj2 (contains_iff "tailf" _)) by (exists x, b; reflexivity). rewrite U. reflexivity.
  - cbn [ext1]. destruct k as [k | m w]; [discriminate |]. destruct (contains "tailf" m) eqn:C; [| discriminate].
    destruct (assoc String.eqb m ns) as [u |] eqn:U; [| discriminate]. intros H. injection H as <- <-.
    apply contains_iff in C. destruct C as (x & b & ->). exists x, b, w, u. auto.
Qed.
Lemma ext1_any : forall ns e, ext1 ns e = [] \/ exists n v, ext1 ns e = [(n, v)].
Proof.
  intros ns ([k | m w], a); cbn [ext1]; [auto |]. destruct (contains "tailf" m); [| auto].
  destruct (assoc String.eqb m ns); eauto.
Qed.
Lemma look_ext_iff : forall ns n v l, look n (flat_map (ext1 ns) l) = Some v <->
  exists a e r, l = a ++ e :: r /\ Annotates ns e n v /\ forall e' v', In e' r -> ~ Annotates ns e' n v'.
Proof.
  intros ns n v l. induction l as [| e l IH]; cbn [flat_map].
  - split; [discriminate |]. intros (a & e & r & H & _). destruct a; discriminate H.
  - rewrite look_app. destruct (look n (flat_map (ext1 ns) l)) as [w |] eqn:E.
    + rewrite IH. split.
      * intros (a & e' & r & -> & A & B). exists (e :: a), e', r. auto.
      * intros (a & e' & r & H & A & B). destruct a as [| x a].
        -- injection H as <- <-. exfalso.
           assert (X : forall q, look n (flat_map (ext1 ns) q) = Some w -> exists e' v', In e' q /\ Annotates ns e' n v').
           { induction q as [| y q IHq]; cbn [flat_map]; [discriminate |]. rewrite look_app.
             destruct (look n (flat_map (ext1 ns) q)) as [w' |].
             - intros G. destruct (IHq G) as (e' & v' & I & J). exists e', v'. split; [right; exact I | exact J].
             - intros G. destruct (ext1_any ns y) as [Y | (n' & v' & Y)]; rewrite Y in G; [discriminate |]. cbn [look] in G.
               destruct (String.eqb_spec n n') as [<- |]; [| discriminate]. exists y, v'. split; [left; reflexivity |].
               apply ext1_iff. exact Y. }
           destruct (X l E) as (e' & v' & I & J). exact (B e' v' I J).
        -- injection H as <- ->. exists a, e', r. auto.
    + assert (X : forall e' v', In e' l -> ~ Annotates ns e' n v').
      { clear IH. revert E. induction l as [| y l IHl]; intros E e' v' I J; [destruct I |]. cbn [flat_map] in E. rewrite look_app in E.
        destruct (look n (flat_map (ext1 ns) l)) eqn:F; [discriminate |]. destruct I as [-> | I]; [| exact (IHl eq_refl e' v' I J)].
        apply ext1_iff in J. rewrite J in E. cbn [look] in E. rewrite String.eqb_refl in E. discriminate. }
      split.
      * intros H. exists [], e, l. split; [reflexivity |]. split; [| exact X]. apply ext1_iff.
        destruct (ext1_any ns e) as [Y | (n' & v' & Y)]; rewrite Y in H; [discriminate |]. cbn [look] in H.
        destruct (String.eqb_spec n n') as [<- |]; [| discriminate]. injection H as <-. exact Y.
      * intros (a & e' & r & H & A & B). destruct a as [| x a].
        -- injection H as <- <-. apply ext1_iff in A. rewrite A. cbn [look]. rewrite String.eqb_refl. reflexivity.
        -- injection H as <- ->. exfalso. apply (X e' v); [apply in_or_app; right; left; reflexivity | exact A].
Qed.

Lemma at_mandatory : forall kw m i, look "mandatory" (plain_attrs kw m i) =
  if String.eqb kw "choice" && eq_opt "true" (y_mandatory i) || (String.eqb kw "leaf" || String.eqb kw "leaf-list") && (eq_opt "true" (y_mandatory i) || y_is_key i)
  then Some "true" else None.
Proof. intros kw m i. looks. inner kw; try reflexivity; destruct (eq_opt "true" (y_mandatory i)), (y_is_key i); reflexivity. Qed.
Lemma at_values : forall kw m i, look "values" (plain_attrs kw m i) =
  if String.eqb kw "choice" then match y_cases i with [] => None | l => Some (String.concat "|" l) end
  else if String.eqb kw "leaf" || String.eqb kw "leaf-list"
  then match y_type i with Some (_, v, _) => if String.eqb v "" then None else Some v | None => None end else None.
Proof.
  intros kw m i. looks. inner kw; try reflexivity.
  - destruct (y_cases i); reflexivity.
  - destruct (y_type i) as [[[d v] [u |]] |]; try reflexivity; cbn; destruct (String.eqb v ""); reflexivity.
  - destruct (y_type i) as [[[d v] [u |]] |]; try reflexivity; cbn; destruct (String.eqb v ""); reflexivity.
Qed.
Lemma at_datatype : forall kw m i, look "datatype" (plain_attrs kw m i) =
  if String.eqb kw "leaf" || String.eqb kw "leaf-list" then match y_type i with Some (d, _, _) => Some d | None => None end else None.
Proof.
  intros kw m i. looks. inner kw; try reflexivity;
  (destruct (y_type i) as [[[d v] [u |]] |]; try reflexivity; cbn; destruct (String.eqb v ""); reflexivity).
Qed.
Lemma at_union : forall kw m i, look "unionmembertypes" (plain_attrs kw m i) =
  if String.eqb kw "leaf" || String.eqb kw "leaf-list" then match y_type i with Some (_, _, u) => u | None => None end else None.
Proof.
  intros kw m i. looks. inner kw; try reflexivity;
  (destruct (y_type i) as [[[d v] [u |]] |]; try reflexivity; cbn; destruct (String.eqb v ""); reflexivity).
Qed.

(** The names of the attributes *)
Definition plain_names : list string :=
  ["access"; "type"; "status"; "default"; "key"; "ordered-by"; "presence"; "mandatory"; "values"; "datatype"; "unionmembertypes"; "is_key"].
Lemma plain_only : forall kw m i n, ~ In n plain_names -> look n (plain_attrs kw m i) = None.
Proof.
  intros kw m i n H.
  assert (D : forall s, In s plain_names -> n <> s) by (intros s I ->; exact (H I)).
  unfold plain_attrs. rewrite !look_app.
  rewrite look_status by (apply D; vm_compute; tauto). rewrite look_default by (apply D; vm_compute; tauto).
  kinds kw; cbn [String.eqb Ascii.eqb Bool.eqb orb andb];
  rewrite ?(proj2 (String.eqb_neq _ _)) by assumption;
  rewrite ?look_app, ?look_if, ?look_opt; rewrite ?look_presence by (apply D; vm_compute; tauto); rewrite ?look_cases by (apply D; vm_compute; tauto);
  rewrite ?look_type by (apply D; vm_compute; tauto); cbn [look];
  rewrite ?(proj2 (String.eqb_neq n _)) by (apply D; vm_compute; tauto); reflexivity.
Qed.

Lemma keys_dset : forall k v (d : list (string * string)), NoDup (map fst d) -> NoDup (map fst (dset String.eqb k v d)).
Proof.
  intros k v d. induction d as [| (a, b) d IH]; intros N; cbn [dset map fst]; [constructor; [intros [] | constructor] |].
  inversion N as [| ? ? N1 N2]; subst. destruct (String.eqb_spec k a) as [-> | X]; cbn [map fst]; [constructor; auto |].
  constructor; [| auto]. intros G. apply N1. apply in_map_iff in G. destruct G as ((c, w) & E & G). cbn in E. subst c.
  clear - G X. induction d as [| (p, q) d IH]; cbn [dset] in G.
  - destruct G as [G | []]. injection G as -> _. contradiction.
  - destruct (String.eqb_spec k p) as [-> | Y]; destruct G as [G | G].
    + injection G as -> _. contradiction.
    + right. apply in_map_iff. exists (a, w). auto.
    + injection G as -> _. left. reflexivity.
    + right. apply IH. exact G.
Qed.
Lemma set_all_nodup : forall l, NoDup (map fst (set_all l)).
Proof.
  intros l. unfold set_all.
  assert (G : forall d : list (string * string), NoDup (map fst d) -> NoDup (map fst (fold_left (fun d '(k, v) => dset String.eqb k v d) l d))).
  { induction l as [| (k, v) l IH]; intros d N; cbn [fold_left]; [exact N |]. apply IH. apply keys_dset. exact N. }
  apply G. constructor.
Qed.
Lemma In_assoc : forall n v (d : list (string * string)), NoDup (map fst d) -> In (n, v) d <-> assoc String.eqb n d = Some v.
Proof.
  intros n v d. induction d as [| (a, b) d IH]; intros N; cbn [assoc]; [split; [intros [] | discriminate] |].
  inversion N as [| ? ? N1 N2]; subst. destruct (String.eqb_spec n a) as [-> | X].
  - split; [intros [H | H]; [congruence |] | intros H; injection H as ->; left; reflexivity].
    exfalso. apply N1. apply in_map_iff. exists (a, v). auto.
  - rewrite <- IH by exact N2. split; [intros [H | H]; [congruence | exact H] | right; assumption].
Qed.

Lemma not_brace : forall n, In n ("if-feature" :: plain_names) -> forall r, n <> String "{" r.
Proof. intros n H r ->. cbn in H. repeat (destruct H as [H | H]; [discriminate H |]). exact H. Qed.
Lemma Annotates_brace : forall ns e n v, Annotates ns e n v -> exists r, n = String "{" r.
Proof. intros ns e n v (a & b & w & u & _ & _ & -> & _). eexists. reflexivity. Qed.

Lemma says_iff : forall ns k m i n v, n <> "access" ->
  look n (plain_attrs k m i ++ ext_attrs ns i ++ feature_attrs i) = Some v <-> Says ns k i n v.
Proof.
  intros ns k m i n v A. rewrite !look_app.
  assert (X : ext_attrs ns i = flat_map (ext1 ns) (y_ext i)) by reflexivity.
  assert (F : feature_attrs i = match features i with [] => [] | l => [("if-feature", String.concat " " l)] end)
    by (unfold feature_attrs; fold (features i); destruct (features i); reflexivity).
  split.
  - intros H. destruct (look n (feature_attrs i)) as [w |] eqn:E1.
    + injection H as <-. rewrite F in E1. destruct (features i) as [| f l] eqn:E; [discriminate |]. cbn [look] in E1.
      destruct (String.eqb_spec n "if-feature") as [-> |]; [| discriminate]. injection E1 as <-. apply a_feature.
      apply Features_iff. symmetry. exact E.
    + clear E1. destruct (look n (ext_attrs ns i)) as [w |] eqn:E2.
      * injection H as <-. rewrite X in E2. apply look_ext_iff in E2. destruct E2 as (a & e & r & E & B & C).
        exact (a_ext ns k i a e r n w E B C).
      * clear E2. destruct (in_dec string_dec n plain_names) as [I | I]; [| rewrite plain_only in H by exact I; discriminate].
        cbn in I. repeat (destruct I as [<- | I]).
        -- contradiction.
        -- rewrite at_type in H. injection H as <-. constructor.
        -- rewrite at_status in H. destruct (y_status i) as [s |] eqn:E; [| discriminate].
           destruct (String.eqb s "deprecated" || String.eqb s "obsolete") eqn:G; [| discriminate]. injection H as <-.
           apply a_status; [exact E |]. apply orb_true_iff in G. destruct G as [G | G]; apply String.eqb_eq in G; auto.
        -- rewrite at_default in H. destruct (y_defaults i) as [| d l] eqn:E; [discriminate |]. injection H as <-. apply a_default. exact E.
        -- rewrite at_key in H. destruct (String.eqb_spec k "list") as [-> |]; [| discriminate]. apply a_key; auto.
        -- rewrite at_user in H. destruct ((String.eqb k "list" || String.eqb k "leaf-list") && eq_opt "user" (y_ordered i)) eqn:G; [| discriminate].
           injection H as <-. apply andb_true_iff in G. destruct G as [G1 G2]. apply eq_opt_true in G2. apply a_ordered; [| exact G2].
           apply orb_true_iff in G1. destruct G1 as [G | G]; apply String.eqb_eq in G; auto.
        -- rewrite at_presence in H. destruct (String.eqb_spec k "container") as [-> |]; [| discriminate].
           destruct (y_presence i) eqn:G; [| discriminate]. injection H as <-. apply a_presence; [reflexivity | congruence].
        -- rewrite at_mandatory in H.
           destruct (String.eqb k "choice" && eq_opt "true" (y_mandatory i)) eqn:G1; cbn [orb] in H.
           ++ injection H as <-. apply andb_true_iff in G1. destruct G1 as [G1 G2]. apply eq_opt_true in G2. apply String.eqb_eq in G1.
              apply a_choice; assumption.
           ++ destruct ((String.eqb k "leaf" || String.eqb k "leaf-list") && (eq_opt "true" (y_mandatory i) || y_is_key i)) eqn:G; [| discriminate].
              injection H as <-. apply andb_true_iff in G. destruct G as [G2 G3]. apply a_mandatory.
              ** apply orb_true_iff in G2. destruct G2 as [G | G]; apply String.eqb_eq in G; [left | right]; exact G.
              ** apply orb_true_iff in G3. destruct G3 as [G | G]; [left; apply eq_opt_true; exact G | right; exact G].
        -- rewrite at_values in H. destruct (String.eqb_spec k "choice") as [-> |].
           ++ destruct (y_cases i) as [| c l] eqn:E; [discriminate |]. injection H as <-. apply a_cases; [reflexivity | exact E].
           ++ destruct (String.eqb k "leaf" || String.eqb k "leaf-list") eqn:G; [| discriminate].
              destruct (y_type i) as [[[d w] u] |] eqn:E; [| discriminate]. destruct (String.eqb_spec w ""); [discriminate |]. injection H as <-.
              apply (a_values ns k i d w u); [| exact E | assumption].
              apply orb_true_iff in G. destruct G as [G | G]; apply String.eqb_eq in G; [left | right]; exact G.
        -- rewrite at_datatype in H. destruct (String.eqb k "leaf" || String.eqb k "leaf-list") eqn:G; [| discriminate].
           destruct (y_type i) as [[[d w] u] |] eqn:E; [| discriminate]. injection H as <-.
           apply (a_datatype ns k i d w u); [| exact E].
           apply orb_true_iff in G. destruct G as [G | G]; apply String.eqb_eq in G; [left | right]; exact G.
        -- rewrite at_union in H. destruct (String.eqb k "leaf" || String.eqb k "leaf-list") eqn:G; [| discriminate].
           destruct (y_type i) as [[[d w] u] |] eqn:E; [| discriminate]. subst u.
           apply (a_union ns k i d w v); [| exact E].
           apply orb_true_iff in G. destruct G as [G | G]; apply String.eqb_eq in G; [left | right]; exact G.
        -- rewrite at_is_key in H. destruct ((String.eqb k "leaf" || String.eqb k "leaf-list") && y_is_key i) eqn:G; [| discriminate].
           injection H as <-. apply andb_true_iff in G. destruct G as [G1 G2]. apply a_is_key; [| exact G2].
           apply orb_true_iff in G1. destruct G1 as [G | G]; apply String.eqb_eq in G; [left | right]; exact G.
        -- destruct I.
  - intros S.
    assert (Z : In n plain_names -> look n (plain_attrs k m i) = Some v ->
      match match look n (feature_attrs i) with Some w => Some w | None => look n (ext_attrs ns i) end with
      | Some w => Some w | None => look n (plain_attrs k m i) end = Some v).
    { intros I L. rewrite look_feature by (intros ->; vm_compute in I; intuition discriminate).
      rewrite look_ext by (apply not_brace; right; exact I). exact L. }
    destruct S as [| v S1 S2 | d l S | v -> S | S1 S2 | -> S | -> S | c l -> S | d v u S1 S2 | d v u S1 S2 S3 | d v u S1 S2 | S1 S2 | S1 S2 | f l S | l e r n v S1 S2 S3];
      try (apply Z; [vm_compute; tauto |]).
    + apply at_type.
    + rewrite at_status, S1. destruct S2 as [-> | ->]; reflexivity.
    + rewrite at_default, S. reflexivity.
    + rewrite at_key. exact S.
    + rewrite at_user, S2. destruct S1 as [-> | ->]; reflexivity.
    + rewrite at_presence. cbn. destruct (y_presence i); [reflexivity | contradiction].
    + rewrite at_mandatory, S. reflexivity.
    + rewrite at_values, S. reflexivity.
    + rewrite at_datatype, S2. destruct S1 as [-> | ->]; reflexivity.
    + rewrite at_values, S2. apply String.eqb_neq in S3. rewrite S3. destruct S1 as [-> | ->]; reflexivity.
    + rewrite at_union, S2. destruct S1 as [-> | ->]; reflexivity.
    + rewrite at_mandatory. destruct S2 as [-> | ->]; destruct S1 as [-> | ->]; cbn; try reflexivity; destruct (eq_opt "true" (y_mandatory i)); reflexivity.
    + rewrite at_is_key, S2. destruct S1 as [-> | ->]; reflexivity.
    + apply Features_iff in S. rewrite F, <- S. reflexivity.
    + destruct (Annotates_brace ns e n v S2) as (q & Q).
      rewrite look_feature by (rewrite Q; discriminate).
      rewrite X. rewrite (proj2 (look_ext_iff ns n v (y_ext i))); [reflexivity |]. exists l, e, r. auto.
Qed.

Lemma depict_described : forall t ns m x, depict ns m t = Ok x -> Described ns t x.
Proof.
  induction t as [i ks IH] using ystmt_all. intros ns m x H. rewrite depict_eq in H.
  destruct (assoc String.eqb (y_module i) ns) as [u |] eqn:U; [| discriminate].
  destruct (y_kw i) as [k |] eqn:K; [| discriminate].
  apply bind_ok in H. destruct H as (l & G & H). injection H as <-.
  assert (N := set_all_nodup (plain_attrs k m i ++ ext_attrs ns i ++ feature_attrs i)).
  apply (described ns i ks k u _ l K U N).
  - intros n v A. rewrite In_assoc by exact N. rewrite set_all_look. apply says_iff. exact A.
  - assert (L : look "access" (plain_attrs k m i ++ ext_attrs ns i ++ feature_attrs i) = Some (access m i)).
    { rewrite !look_app, look_feature by discriminate. rewrite look_ext by (apply not_brace; right; left; reflexivity). apply at_access. }
    rewrite <- set_all_look in L. apply In_assoc in L; [| exact N]. apply in_map_iff. exists ("access", access m i). auto.
  - apply go_ok in G. clear - IH G. induction G as [| c y ks l Hc G IHG]; constructor.
    + inversion IH as [| ? ? A B]; subst. exact (A ns _ y Hc).
    + apply IHG. inversion IH; assumption.
Qed.

Lemma data_iff : forall t, is_data t = true <-> DataNode t.
Proof.
  intros t. unfold is_data, DataNode. rewrite existsb_exists. split.
  - intros (k & I & H). apply is_kw_eq in H. rewrite H. apply in_map. exact I.
  - intros H. apply in_map_iff in H. destruct H as (k & E & I). exists k. split; [exact I |]. unfold is_kw. rewrite <- E. apply String.eqb_refl.
Qed.

Lemma compile_described : forall ns kids xs, compile_nodes ns kids = Ok xs ->
  Forall2 (Described ns) (filter is_data kids ++ filter (is_kw "rpc") kids ++ filter (is_kw "notification") kids) xs /\
  forall t, is_data t = true <-> DataNode t.
Proof.
  intros ns kids xs E. split; [| apply data_iff]. unfold compile_nodes in E.
  apply bind_ok in E. destruct E as (a & A & E). apply bind_ok in E. destruct E as (b & B & E). apply bind_ok in E. destruct E as (c & C & E).
  injection E as <-.
  assert (G : forall m q l, mapM (depict ns m) q = Ok l -> Forall2 (Described ns) q l).
  { intros m q l H. apply mapM_ok in H. induction H; constructor; [eapply depict_described; eassumption | assumption]. }
  apply Forall2_app; [exact (G _ _ _ A) | apply Forall2_app; [exact (G _ _ _ B) | exact (G _ _ _ C)]].
Qed.

Lemma depict_by_config : forall t ns m x, m = MNone -> depict ns m t = Ok x -> ByConfig t x.
Proof.
  induction t as [i ks IH] using ystmt_all. intros ns m x Hm H. rewrite depict_eq in H.
  destruct (assoc String.eqb (y_module i) ns) as [u |] eqn:U; [| discriminate].
  destruct (y_kw i) as [k |] eqn:K; [| discriminate].
  apply bind_ok in H. destruct H as (l & G & H). injection H as <-.
  apply (by_config i ks k _ K).
  - transitivity (look "access" (plain_attrs k m i)); [exact (node_attr "access" ns m i k _ None l ltac:(discriminate) ltac:(discriminate)) |].
    rewrite at_access. unfold access. rewrite K, Hm.
    destruct (string_dec k "rpc") as [-> | N]; [reflexivity |]. apply String.eqb_neq in N. rewrite N. cbn [orb].
    destruct (string_dec k "notification") as [-> | M]; [reflexivity |]. apply String.eqb_neq in M. rewrite M. reflexivity.
  - cbn [xkids]. apply go_ok in G. clear - IH G Hm. induction G as [| c y ks l Hc G IHG]; constructor.
    + inversion IH as [| ? ? A B]; subst. exact (A ns MNone y eq_refl Hc).
    + apply IHG. inversion IH; assumption.
Qed.

Lemma compile_by_config : forall ns kids xs, compile_nodes ns kids = Ok xs ->
  exists a b, xs = a ++ b /\ Forall2 ByConfig (filter is_data kids) a.
Proof.
  intros ns kids xs E. unfold compile_nodes in E.
  apply bind_ok in E. destruct E as (a & A & E). apply bind_ok in E. destruct E as (b & B & E). apply bind_ok in E. destruct E as (c & C & E).
  injection E as <-. exists a, (b ++ c). split; [reflexivity |]. apply mapM_ok in A.
  induction A; constructor; [eapply depict_by_config; [reflexivity | eassumption] | assumption].
Qed.
