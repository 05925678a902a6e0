(** Proofs about DepictM.v. *)
From Coq Require Import String Ascii List Bool Arith Lia.
From Verif Require Import Base BaseP XmlM TagM TagSpec TagP DepictM DepictSpec.
Import ListNotations.
Open Scope string_scope.
Open Scope list_scope.

(** ** Induction over statements *)
Lemma ystmt_all : forall (P : ystmt -> Prop), (forall i ks, Forall P ks -> P (YStmt i ks)) -> forall t, P t.
Proof.
  intros P H. fix IH 1. intros [i ks]. apply H. induction ks as [| c ks IHk]; constructor; [apply IH | exact IHk].
Qed.

Definition go (ns : list (string * string)) (m : mode) : list ystmt -> res (list xml) :=
  fix go (l : list ystmt) : res (list xml) :=
    match l with
    | [] => Ok []
    | c :: r => let! x := depict ns (child_mode m c) c in let! y := go r in Ok (x :: y)
    end.
Lemma depict_eq : forall ns m i ks, depict ns m (YStmt i ks) =
  match assoc String.eqb (y_module i) ns with
  | None => Err KeyError
  | Some u =>
      match y_kw i with
      | KwExt _ _ => Err TypeError
      | Kw k => let! l := go ns m ks in
                Ok (Elem ("{" ++ u ++ "}" ++ y_arg i)%string None
                      (set_all (plain_attrs k m i ++ ext_attrs ns i ++ feature_attrs i)) l)
      end
  end.
Proof. reflexivity. Qed.
Lemma go_ok : forall ns m ks l, go ns m ks = Ok l <-> Forall2 (fun c x => depict ns (child_mode m c) c = Ok x) ks l.
Proof.
  intros ns m ks. induction ks as [| c ks IH]; intros l; cbn [go].
  - split; [intros H; injection H as <-; constructor | intros H; inversion H; reflexivity].
  - rewrite bind_ok. split.
    + intros (x & Hx & H). apply bind_ok in H. destruct H as (y & Hy & H). injection H as <-. constructor; auto. apply IH. auto.
    + intros H. inversion H as [| ? x ? y Hx Hy]; subst. exists x. split; auto. apply bind_ok. exists y. split; auto. apply IH. auto.
Qed.

Lemma depict_total : forall t ns m, Named ns t -> exists x, depict ns m t = Ok x.
Proof.
  induction t as [i ks IH] using ystmt_all; intros ns m H. inversion H as [? ? k u Hk Hu Hw Hn Hks]; subst.
  rewrite depict_eq, Hu, Hk.
  assert (G : exists l, go ns m ks = Ok l).
  { clear H Hk Hu Hw Hn. induction ks as [| c ks IHk]; [exists []; reflexivity |].
    inversion IH as [| ? ? H1 H2]; subst. inversion Hks as [| ? ? H3 H4]; subst.
    destruct (H1 ns (child_mode m c) H3) as (x & Hx). destruct (IHk H2 H4) as (y & Hy).
    exists (x :: y). cbn [go]. rewrite Hx. cbn [bind]. rewrite Hy. reflexivity. }
  destruct G as (l & ->). cbn [bind]. eauto.
Qed.

(** ** Attributes *)
Fixpoint look (k : string) (l : list (string * string)) : option string :=
  match l with
  | [] => None
  | (k', v) :: r => match look k r with Some w => Some w | None => if String.eqb k k' then Some v else None end
  end.
Lemma dset_assoc : forall k k' v (d : list (string * string)),
  assoc String.eqb k (dset String.eqb k' v d) = if String.eqb k k' then Some v else assoc String.eqb k d.
Proof.
  intros k k' v d. induction d as [| (a, b) d IH]; cbn [dset assoc]; [reflexivity |].
  destruct (String.eqb_spec k' a) as [-> | N]; cbn [assoc].
  - destruct (String.eqb_spec k a); reflexivity.
  - rewrite IH. destruct (String.eqb_spec k a) as [-> |]; auto.
    destruct (String.eqb_spec a k') as [-> |]; congruence.
Qed.
Lemma set_all_look : forall k l, assoc String.eqb k (set_all l) = look k l.
Proof.
  intros k l. unfold set_all.
  assert (G : forall d, assoc String.eqb k (fold_left (fun d '(k, v) => dset String.eqb k v d) l d) =
                        match look k l with Some v => Some v | None => assoc String.eqb k d end).
  { induction l as [| (k', v) l IH]; intros d; cbn [fold_left look]; [reflexivity |].
    rewrite IH, dset_assoc. destruct (look k l); auto. destruct (String.eqb k k'); auto. }
  rewrite G. destruct (look k l); reflexivity.
Qed.
Lemma look_app : forall k a b, look k (a ++ b) = match look k b with Some v => Some v | None => look k a end.
Proof.
  intros k a b. induction a as [| (k', v) a IH]; cbn [app look]; [destruct (look k b); reflexivity |].
  rewrite IH. destruct (look k b); auto.
Qed.
Lemma look_if : forall k b k' v, look k (if_attr b k' v) = if String.eqb k k' && b then Some v else None.
Proof. intros k [|] k' v; cbn; destruct (String.eqb k k'); reflexivity. Qed.
Lemma look_opt : forall k k' o, look k (opt_attr k' o) = if String.eqb k k' then o else None.
Proof. intros k k' [v |]; cbn; destruct (String.eqb k k'); reflexivity. Qed.
Lemma look_none : forall k l, ~ In k (map fst l) -> look k l = None.
Proof.
  intros k l. induction l as [| (k', v) l IH]; intros H; cbn; auto.
  rewrite IH by (intro G; apply H; right; auto). destruct (String.eqb_spec k k') as [-> |]; auto. exfalso. apply H. left. auto.
Qed.
Lemma look_ext : forall k ns i, (forall r, k <> String "{" r) -> look k (ext_attrs ns i) = None.
Proof.
  intros k ns i H. apply look_none. intros G. apply in_map_iff in G. destruct G as ((a, v) & E & G). cbn in E. subst a.
  unfold ext_attrs in G. apply in_flat_map in G. destruct G as ((w, o) & _ & G). destruct w as [| m w]; [destruct G |].
  destruct (contains "tailf" m); [| destruct G]. destruct (assoc String.eqb m ns); [| destruct G].
  destruct G as [G | []]. injection G as G _. cbn in G. symmetry in G. exact (H _ G).
Qed.
Lemma look_feature : forall k i, k <> "if-feature" -> look k (feature_attrs i) = None.
Proof.
  intros k i H. apply look_none. unfold feature_attrs.
  destruct (y_features i ++ _); cbn; [tauto |]. intros [G | []]. congruence.
Qed.

(** The attribute [k] of the node *)
Lemma node_attr : forall k ns m i kw t tx ks, (forall r, k <> String "{" r) -> k <> "if-feature" ->
  get_attr k (Elem t tx (set_all (plain_attrs kw m i ++ ext_attrs ns i ++ feature_attrs i)) ks) = look k (plain_attrs kw m i).
Proof.
  intros k ns m i kw t tx ks H1 H2. unfold get_attr. cbn [xattrs]. rewrite set_all_look, !look_app.
  rewrite look_feature, look_ext; auto.
Qed.

Ltac kinds kw :=
  destruct (String.eqb_spec kw "list") as [-> | ?Nl];
  [| destruct (String.eqb_spec kw "container") as [-> | ?Nc];
     [| destruct (String.eqb_spec kw "choice") as [-> | ?Nh];
        [| destruct (String.eqb_spec kw "leaf") as [-> | ?Nf];
           [| destruct (String.eqb_spec kw "leaf-list") as [-> | ?Ng]]]]].

Lemma look_type : forall k (x : option (string * string * option string)),
  k <> "datatype" -> k <> "values" -> k <> "unionmembertypes" ->
  look k (match x with None => [] | Some (d, v, u) => ("datatype", d) :: if_attr (negb (String.eqb v "")) "values" v ++ opt_attr "unionmembertypes" u end) = None.
Proof.
  intros k x H1 H2 H3. destruct x as [[[d v] u] |]; [| reflexivity]. cbn [look]. rewrite look_app, look_if, look_opt.
  apply String.eqb_neq in H1. apply String.eqb_neq in H2. apply String.eqb_neq in H3. rewrite H1, H2, H3. cbn. reflexivity.
Qed.
Lemma look_status : forall k o, k <> "status" -> look k (match o with Some s => if_attr (String.eqb s "deprecated" || String.eqb s "obsolete") "status" s | None => [] end) = None.
Proof. intros k [s |] H; [| reflexivity]. rewrite look_if. apply String.eqb_neq in H. rewrite H. reflexivity. Qed.
Lemma look_default : forall k l, k <> "default" -> look k (match l with [] => [] | a :: r => [("default", String.concat "," (a :: r))] end) = None.
Proof. intros k [| a l] H; [reflexivity |]. cbn [look]. apply String.eqb_neq in H. rewrite H. reflexivity. Qed.
Lemma look_cases : forall k l, k <> "values" -> look k (match l with [] => [] | a :: r => [("values", String.concat "|" (a :: r))] end) = None.
Proof. intros k [| a l] H; [reflexivity |]. cbn [look]. apply String.eqb_neq in H. rewrite H. reflexivity. Qed.
Lemma look_presence : forall k (o : option string), k <> "presence" -> look k (match o with Some _ => [("presence", "true")] | None => [] end) = None.
Proof. intros k [a |] H; [| reflexivity]. cbn [look]. apply String.eqb_neq in H. rewrite H. reflexivity. Qed.

Ltac neqs := try discriminate; try (repeat split; discriminate).
Ltac looks := unfold plain_attrs; rewrite !look_app;
  rewrite ?look_status by neqs; rewrite ?look_default by neqs.
Ltac inner kw :=
  kinds kw; cbn [String.eqb Ascii.eqb Bool.eqb orb andb];
  rewrite ?(proj2 (String.eqb_neq _ _)) by assumption;
  rewrite ?look_app, ?look_if, ?look_opt; rewrite ?look_presence by neqs; rewrite ?look_cases by neqs;
  rewrite ?look_type by discriminate; cbn [look String.eqb Ascii.eqb Bool.eqb orb andb].

Lemma at_access : forall kw m i, look "access" (plain_attrs kw m i) = Some (access m i).
Proof. intros kw m i. looks. inner kw; reflexivity. Qed.
Lemma at_type : forall kw m i, look "type" (plain_attrs kw m i) = Some kw.
Proof. intros kw m i. looks. inner kw; reflexivity. Qed.
Lemma at_status : forall kw m i, look "status" (plain_attrs kw m i) =
  match y_status i with Some s => if String.eqb s "deprecated" || String.eqb s "obsolete" then Some s else None | None => None end.
Proof.
  intros kw m i. looks. inner kw;
    (destruct (y_status i) as [s |]; [rewrite look_if; cbn; destruct (String.eqb s "deprecated" || String.eqb s "obsolete") |]; reflexivity).
Qed.
Lemma at_default : forall kw m i, look "default" (plain_attrs kw m i) =
  match y_defaults i with [] => None | l => Some (String.concat "," l) end.
Proof. intros kw m i. looks. inner kw; (destruct (y_defaults i); reflexivity). Qed.
Lemma at_key : forall kw m i, look "key" (plain_attrs kw m i) = if String.eqb kw "list" then y_key i else None.
Proof. intros kw m i. looks. inner kw; try reflexivity. destruct (y_key i); reflexivity. Qed.
Lemma at_presence : forall kw m i, look "presence" (plain_attrs kw m i) =
  if String.eqb kw "container" then match y_presence i with Some _ => Some "true" | None => None end else None.
Proof. intros kw m i. looks. inner kw; try reflexivity. destruct (y_presence i); reflexivity. Qed.
Lemma at_user : forall kw m i, look "ordered-by" (plain_attrs kw m i) =
  if (String.eqb kw "list" || String.eqb kw "leaf-list") && eq_opt "user" (y_ordered i) then Some "user" else None.
Proof. intros kw m i. looks. inner kw; try reflexivity; destruct (eq_opt "user" (y_ordered i)); reflexivity. Qed.
Lemma at_is_key : forall kw m i, look "is_key" (plain_attrs kw m i) =
  if (String.eqb kw "leaf" || String.eqb kw "leaf-list") && y_is_key i then Some "true" else None.
Proof. intros kw m i. looks. inner kw; try reflexivity; destruct (y_is_key i); reflexivity. Qed.

(** ** Keys *)
Definition pcs (run : bool) (s : string) : list string := let '(h, t) := split_blanks run s in h :: t.
Definition full (s : string) : bool := negb (String.eqb s "").

Lemma pcs_blank : forall run s, filter full (pcs run (String " " s)) = filter full (pcs true s).
Proof.
  intros [|] s; unfold pcs; cbn [split_blanks Ascii.eqb Bool.eqb]; destruct (split_blanks true s) as (h, t); reflexivity.
Qed.
Lemma pcs_blanks : forall b s run, Blanks b ->
  filter full (pcs run (b ++ s)%string) = filter full (pcs (match b with "" => run | _ => true end) s).
Proof.
  intros b s. induction b as [| c b IH]; intros run H; [reflexivity |].
  inversion H as [| ? ? E H']; subst. cbn [append]. rewrite pcs_blank, (IH true H'). destruct b; reflexivity.
Qed.
Lemma split_word : forall n s run, (forall c, In c (chars n) -> c <> " "%char) -> n <> "" ->
  split_blanks run (n ++ s)%string = let '(h, t) := split_blanks false s in ((n ++ h)%string, t).
Proof.
  induction n as [| c n IH]; intros s run H Hne; [congruence |]. cbn [append split_blanks].
  destruct (Ascii.eqb_spec c " ") as [-> | N]; [exfalso; apply (H " "%char); [left |]; auto |].
  destruct n as [| c' n].
  - cbn [append]. destruct (split_blanks false s); reflexivity.
  - rewrite (IH s false); [| intros x Hx; apply H; right; auto | discriminate].
    destruct (split_blanks false s). reflexivity.
Qed.

Lemma Identifier_not : forall n c, Identifier n -> In c (newline :: chars " :{}") -> ~ In c (chars n).
Proof. intros n c (_ & H) Hc Hn. exact (H c Hn Hc). Qed.
Lemma Identifier_Word : forall n, Identifier n -> Word n.
Proof. intros n H. split; [apply H | apply (Identifier_not n _ H); cbn; tauto]. Qed.
Lemma Names_full : forall n m, Names n m -> n <> "" /\ forall c, In c (chars n) -> c <> " "%char.
Proof.
  intros n m (Hm & [-> | (p & Hp & ->)]).
  - split; [apply Hm |]. intros c Hc ->. exact (Identifier_not m " "%char Hm ltac:(cbn; tauto) Hc).
  - split; [destruct p; discriminate |]. intros c Hc ->. rewrite !chars_app in Hc.
    apply in_app_or in Hc. destruct Hc as [Hc | Hc]; [exact (Identifier_not p " "%char Hp ltac:(cbn; tauto) Hc) |].
    apply in_app_or in Hc. destruct Hc as [[Hc | []] | Hc]; [discriminate |].
    exact (Identifier_not m " "%char Hm ltac:(cbn; tauto) Hc).
Qed.
Lemma app_empty : forall a b, (a ++ b)%string = "" -> a = "" /\ b = "".
Proof. intros [| c a] b H; [auto | discriminate]. Qed.
Lemma str_app_nil : forall s, (s ++ "")%string = s.
Proof. induction s; cbn; congruence. Qed.

Lemma KeyText_pcs : forall txt l, KeyText txt l -> forall run,
  exists raws, filter full (pcs run txt) = raws /\ Forall2 Names raws l.
Proof.
  intros txt l H. induction H as [b Hb | b n m rest l Hb Hn Hr H IH]; intros run.
  - rewrite <- (str_app_nil b). rewrite (pcs_blanks b "" run Hb). exists []. split; [reflexivity | constructor].
  - rewrite (pcs_blanks b _ run Hb). set (run' := match b with "" => run | _ => true end).
    destruct (Names_full n m Hn) as (N1 & N2). unfold pcs. rewrite (split_word n rest run' N2 N1).
    destruct Hr as [-> | (r & ->)].
    + inversion H as [? Hb' E1 E2 | b' n' m' rest' l' _ Hn' _ _ E]; subst.
      * cbn [split_blanks]. rewrite str_app_nil. exists [n]. split; [| constructor; [exact Hn | constructor]].
        cbn [filter]. unfold full. rewrite (proj2 (String.eqb_neq n "") N1). reflexivity.
      * exfalso. apply app_empty in E. destruct E as (_ & E). apply app_empty in E. destruct E as (E & _).
        destruct (Names_full n' m' Hn'). congruence.
    + destruct (IH true) as (raws & E & F). cbn [split_blanks Ascii.eqb Bool.eqb].
      unfold pcs in E. cbn [split_blanks Ascii.eqb Bool.eqb] in E.
      destruct (split_blanks true r) as (h, t). rewrite str_app_nil. exists (n :: raws). split; [| constructor; auto].
      change (filter full (n :: h :: t)) with (if full n then n :: filter full (h :: t) else filter full (h :: t)).
      unfold full at 1. rewrite (proj2 (String.eqb_neq n "") N1). cbn [negb]. rewrite E. reflexivity.
Qed.

Lemma Names_local : forall n m, Names n m -> snd (split_tag Colon n) = m.
Proof.
  intros n m (Hm & [-> | (p & Hp & ->)]); unfold split_tag; cbn [re_style].
  - rewrite re_colon_bare by (apply (Identifier_not m _ Hm); cbn; tauto). reflexivity.
  - rewrite re_colon_app; auto using Identifier_Word. apply (Identifier_not m _ Hm). cbn. tauto.
Qed.

Definition tag_fits (ns : list (string * string)) (c : ystmt) (x : xml) : Prop :=
  exists u, assoc String.eqb (y_module (yi c)) ns = Some u /\ Word u /\ Identifier (y_arg (yi c)) /\ xtag x = etree u (y_arg (yi c)).
Lemma tag_local : forall ns c x, tag_fits ns c x -> snd (split_tag Brace (xtag x)) = y_arg (yi c).
Proof.
  intros ns c x (u & _ & Hu & Ha & E). rewrite E. unfold split_tag. cbn [re_style].
  rewrite re_brace_app; auto using Identifier_Word. apply (Identifier_not _ _ Ha). cbn. tauto.
Qed.

Lemma find_key_ok : forall ns ks xs m, Forall2 (tag_fits ns) ks xs -> (exists c, In c ks /\ y_arg (yi c) = m) ->
  exists g, find_key_tag xs m = Some g /\ KeyTag ns ks m g.
Proof.
  intros ns ks xs m H. induction H as [| c x ks xs Hc H IH]; intros (c0 & Hin & E0); [destruct Hin |].
  unfold find_key_tag. cbn [find]. rewrite (tag_local ns c x Hc).
  destruct (String.eqb_spec (y_arg (yi c)) m) as [Em | Nm].
  - destruct Hc as (u & Hu & _ & _ & Et). cbn. exists (xtag x). split; auto.
    exists [], c, ks, u. split; auto. split; auto. split; [intros c' [] |]. split; auto. congruence.
  - destruct Hin as [-> | Hin]; [congruence |]. destruct (IH (ex_intro _ c0 (conj Hin E0))) as (g & G1 & l & c' & r & u & G2 & G3 & G4 & G5).
    exists g. split; [exact G1 |]. exists (c :: l), c', r, u. split; [cbn; congruence |]. split; auto. split; auto.
    intros c'' [<- | Hc'']; auto.
Qed.
Lemma find_key_empty : forall ns ks xs, Forall2 (tag_fits ns) ks xs -> find_key_tag xs "" = None.
Proof.
  intros ns ks xs H. unfold find_key_tag. induction H as [| c x ks xs Hc H IH]; [reflexivity |].
  cbn [find]. rewrite (tag_local ns c x Hc). destruct Hc as (_ & _ & _ & (Ha & _) & _).
  rewrite (proj2 (String.eqb_neq _ _) Ha). exact IH.
Qed.

Lemma flat_map_full : forall {A} (f : string -> list A) l, f "" = [] -> flat_map f l = flat_map f (filter full l).
Proof.
  intros A f l H. induction l as [| a l IH]; [reflexivity |]. cbn [flat_map filter]. unfold full at 1.
  destruct (String.eqb_spec a "") as [-> |]; cbn [negb]; [rewrite H; exact IH | cbn [flat_map]; rewrite IH; reflexivity].
Qed.

Lemma keys_found : forall ns ks xs txt l, Forall2 (tag_fits ns) ks xs -> KeyText txt l ->
  (forall m, In m l -> exists c, In c ks /\ y_arg (yi c) = m) ->
  Forall2 (KeyTag ns ks) l
    (flat_map (fun i => match find_key_tag xs (snd (split_tag Colon i)) with Some g => [g] | None => [] end) (pcs false txt)).
Proof.
  intros ns ks xs txt l HF HK Hex. rewrite flat_map_full.
  2: { replace (snd (split_tag Colon "")) with "" by reflexivity. rewrite (find_key_empty ns ks xs HF). reflexivity. }
  destruct (KeyText_pcs txt l HK false) as (raws & E & F). rewrite E. clear E HK.
  induction F as [| n m raws l Hn F IH]; [constructor |]. cbn [flat_map]. rewrite (Names_local n m Hn).
  destruct (find_key_ok ns ks xs m HF (Hex m (or_introl eq_refl))) as (g & G1 & G2). rewrite G1. cbn [app].
  constructor; auto. apply IH. intros m' Hm'. apply Hex. right. auto.
Qed.

(** ** The schema node *)
Definition special (k : string) : bool := String.eqb k "rpc" || String.eqb k "action" || String.eqb k "notification".
Definition effect (m : mode) (cfg : bool) : string :=
  match m with
  | MNone => if cfg then "read-write" else "read-only"
  | MInput | MRpc => "write"
  | MOutput | MNotification => "read-only"
  end.
(** Below [chain] only the mode counts. *)
Definition Settled (m : mode) (chain : list string) : Prop :=
  m <> MRpc /\ forall l cfg, Forall (fun k => special k = false) l -> allowed (chain ++ l) cfg = effect m cfg.

Lemma DataOnly_kw : forall i ks k, DataOnly (YStmt i ks) -> y_kw i = Kw k -> special k = false.
Proof.
  intros i ks k H E. inversion H as [? ? N _]; subst. rewrite E in N. unfold special.
  destruct (String.eqb_spec k "rpc") as [-> |]; [exfalso; apply N; cbn; tauto |].
  destruct (String.eqb_spec k "action") as [-> |]; [exfalso; apply N; cbn; tauto |].
  destruct (String.eqb_spec k "notification") as [-> |]; [exfalso; apply N; cbn; tauto |]. reflexivity.
Qed.
Lemma access_effect : forall m i k, y_kw i = Kw k -> special k = false ->
  access m i = effect m (match y_config i with Some b => b | None => false end).
Proof.
  intros m i k E S. unfold special in S. rewrite !orb_false_iff in S. destruct S as ((S1 & _) & S3).
  unfold access. rewrite E, S1, S3. destruct m; cbn; auto. destruct (y_config i) as [[|] |]; reflexivity.
Qed.

Lemma read_eq : forall t tx a ks, read_node (Elem t tx a ks) =
  let x := Elem t tx a ks in
  SNode (SInfo t (read_type (get_attr "type" x)) (eq_opt "true" (get_attr "presence" x))
          (eq_opt "user" (get_attr "ordered-by" x)) (get_attr "default" x)
          (match get_attr "is_key" x with Some v => negb (String.eqb v "") | None => false end)
          (composer_keys x) (match get_attr "status" x with Some v => v | None => "" end)
          (match get_attr "access" x with Some v => v | None => "" end))
        (map read_node ks).
Proof. reflexivity. Qed.

Lemma type_read : forall k, type_of k (read_type (Some k)).
Proof.
  intros k. cbn [read_type].
  destruct (String.eqb_spec k "leaf") as [-> |]; [reflexivity |]. destruct (String.eqb_spec k "leaf-list") as [-> |]; [reflexivity |].
  destruct (String.eqb_spec k "container") as [-> |]; [reflexivity |]. destruct (String.eqb_spec k "list") as [-> |]; [reflexivity |].
  destruct (String.eqb_spec k "choice") as [-> |]; [reflexivity |]. destruct (String.eqb_spec k "case") as [-> |]; [reflexivity |].
  cbn. intros [H | [H | [H | [H | [H | [H | []]]]]]]; congruence.
Qed.
Lemma eq_opt_true : forall v o, eq_opt v o = true <-> o = Some v.
Proof. intros v [w |]; cbn; [rewrite String.eqb_eq; split; congruence | split; discriminate]. Qed.

Lemma depict_fits : forall ns m c x, Named ns c -> depict ns m c = Ok x -> tag_fits ns c x.
Proof.
  intros ns m [i ks] x H E. inversion H as [? ? k u Hk Hu Hw Hn _]; subst. rewrite depict_eq, Hu, Hk in E.
  apply bind_ok in E. destruct E as (l & _ & E). injection E as <-. exists u. cbn. auto.
Qed.

(** Everything but the access and the children *)
Lemma node_mirror : forall ns m i ks x k chain, Named ns (YStmt i ks) -> y_kw i = Kw k ->
  depict ns m (YStmt i ks) = Ok x ->
  access m i = allowed (chain ++ [k]) (match y_config i with Some b => b | None => false end) ->
  (forall l, go ns m ks = Ok l -> Forall2 (Mirror ns (chain ++ [k])) ks (map read_node l)) ->
  Mirror ns chain (YStmt i ks) (read_node x).
Proof.
  intros ns m i ks x k chain H Hk E HA HK. inversion H as [? ? k' u Hk' Hu Hw Hn Hks]; subst.
  assert (k' = k) by congruence. subst k'. rewrite depict_eq, Hu, Hk in E. apply bind_ok in E. destruct E as (l & El & E).
  injection E as <-. change ("{" ++ u ++ "}" ++ y_arg i)%string with (etree u (y_arg i)).
  rewrite read_eq. cbv zeta.
  assert (NB : forall k, In k ["type"; "presence"; "ordered-by"; "default"; "is_key"; "status"; "access"; "key"] ->
                 (forall r, k <> String "{" r) /\ k <> "if-feature").
  { intros k0 Hin. cbn in Hin. repeat (destruct Hin as [<- | Hin]; [split; [intros r |]; discriminate |]). destruct Hin. }
  pose proof (fun k0 Hin => node_attr k0 ns m i k (etree u (y_arg i)) None l (proj1 (NB k0 Hin)) (proj2 (NB k0 Hin))) as NA.
  unfold composer_keys. rewrite !NA by (cbn; tauto).
  rewrite at_type, at_presence, at_user, at_default, at_is_key, at_status, at_access, at_key. cbn [xkids].
  apply (mirror ns chain k i ks _ u); cbn [stag sty si skids s_tag s_type s_presence s_user s_default s_is_key s_keys s_status s_access]; auto.
  - apply type_read.
  - rewrite eq_opt_true. destruct (String.eqb_spec k "container") as [-> | N].
    + destruct (y_presence i) as [v |]; [split; [intros _; split; [reflexivity | discriminate] | reflexivity] |].
      split; [discriminate | intros (_ & G); congruence].
    + split; [discriminate | intros (G & _); congruence].
  - rewrite eq_opt_true.
    destruct (String.eqb_spec k "list") as [-> | N1]; cbn [orb andb].
    + destruct (eq_opt "user" (y_ordered i)) eqn:F.
      * apply eq_opt_true in F. split; auto.
      * split; [discriminate |]. intros (_ & G). apply eq_opt_true in G. congruence.
    + destruct (String.eqb_spec k "leaf-list") as [-> | N2]; cbn [andb].
      * destruct (eq_opt "user" (y_ordered i)) eqn:F.
        -- apply eq_opt_true in F. split; auto.
        -- split; [discriminate |]. intros (_ & G). apply eq_opt_true in G. congruence.
      * split; [discriminate | intros ([G | G] & _); congruence].
  - destruct (String.eqb_spec k "leaf") as [-> | N1]; cbn [orb andb].
    + destruct (y_is_key i); cbn; split; auto; try discriminate. intros (_ & G). discriminate.
    + destruct (String.eqb_spec k "leaf-list") as [-> | N2]; cbn [andb].
      * destruct (y_is_key i); cbn; split; auto; try discriminate. intros (_ & G). discriminate.
      * split; [discriminate | intros ([G | G] & _); congruence].
  - intros G. destruct (eq_opt "list" (Some k)) eqn:F; [| reflexivity]. apply eq_opt_true in F. injection F as ->.
    cbn. destruct G as [G | ->]; [congruence | reflexivity].
  - intros txt names -> Hkey HT Hex. cbn [eq_opt String.eqb Ascii.eqb Bool.eqb]. rewrite Hkey.
    change (let '(h, t) := split_blanks false txt in
            flat_map (fun i0 => match find_key_tag l (snd (split_tag Colon i0)) with Some g => [g] | None => [] end) (h :: t))
      with (let '(h, t) := split_blanks false txt in
            flat_map (fun i0 => match find_key_tag l (snd (split_tag Colon i0)) with Some g => [g] | None => [] end) (h :: t)).
    assert (FT : Forall2 (tag_fits ns) ks l).
    { apply go_ok in El. clear -El Hks. induction El as [| c x ks l Hc El IH]; [constructor |].
      inversion Hks; subst. constructor; [eapply depict_fits; eauto | auto]. }
    pose proof (keys_found ns ks l txt names FT HT Hex) as G. unfold pcs in G.
    destruct (split_blanks false txt) as (h, t). exact G.
  - destruct (y_status i) as [v |]; [| reflexivity]. destruct (String.eqb v "deprecated" || String.eqb v "obsolete"); reflexivity.
Qed.

Lemma settled_down : forall m chain k, Settled m chain -> special k = false -> Settled m (chain ++ [k]).
Proof.
  intros m chain k (H1 & H2) S. split; auto. intros l cfg Hl. rewrite <- app_assoc. apply H2. constructor; auto.
Qed.

Lemma data_mirror : forall t ns m chain x k, Named ns t -> DataOnly t -> y_kw (yi t) = Kw k ->
  Settled m (chain ++ [k]) -> depict ns m t = Ok x -> Mirror ns chain t (read_node x).
Proof.
  induction t as [i ks IH] using ystmt_all; intros ns m chain x k HN HD Hk HS E. cbn [yi] in Hk.
  apply (node_mirror ns m i ks x k chain HN Hk E).
  - rewrite (access_effect m i k Hk (DataOnly_kw i ks k HD Hk)). destruct HS as (_ & HS).
    specialize (HS [] (match y_config i with Some b => b | None => false end) ltac:(constructor)). rewrite app_nil_r in HS. auto.
  - intros l El. apply go_ok in El. inversion HN as [? ? ? ? _ _ _ _ Hks]; subst. inversion HD as [? ? _ Hds]; subst.
    clear E HN HD. induction El as [| c y ks l Hc El IHl]; [constructor |].
    inversion IH as [| ? ? H1 H2]; subst. inversion Hks as [| ? ? N1 N2]; subst. inversion Hds as [| ? ? D1 D2]; subst.
    cbn [map]. constructor; [| apply IHl; auto].
    assert (Ek : exists k', y_kw (yi c) = Kw k') by (inversion N1; cbn; eauto). destruct Ek as (k' & Ek).
    assert (Em : child_mode m c = m) by (destruct HS as (HM & _); destruct m; auto; congruence).
    rewrite Em in Hc. apply (H1 ns m (chain ++ [k]) y k' N1 D1 Ek); auto.
    apply settled_down; auto. destruct c as [ci cks]. cbn in Ek. eapply DataOnly_kw; eauto.
Qed.

Lemma allowed_data : forall l cfg, Forall (fun k => special k = false) l -> allowed l cfg = if cfg then "read-write" else "read-only".
Proof.
  intros l cfg H. induction H as [| k l S H IH]; [reflexivity |]. cbn [allowed]. unfold special in S.
  rewrite !orb_false_iff in S. destruct S as ((S1 & S2) & S3). rewrite S1, S2, S3. exact IH.
Qed.

Lemma top_data : forall ns t x, Named ns t -> DataOnly t -> depict ns MNone t = Ok x -> Mirror ns [] t (read_node x).
Proof.
  intros ns t x HN HD E. assert (Ek : exists k, y_kw (yi t) = Kw k) by (inversion HN; cbn; eauto). destruct Ek as (k & Ek).
  apply (data_mirror t ns MNone [] x k HN HD Ek); auto. split; [discriminate |]. intros l cfg Hl. cbn [app effect].
  apply (allowed_data (k :: l)). constructor; auto. destruct t as [i ks]. eapply DataOnly_kw; eauto.
Qed.

Lemma is_kw_eq : forall k t, is_kw k t = true -> y_kw (yi t) = Kw k.
Proof. intros k t H. unfold is_kw in H. destruct (y_kw (yi t)); [| discriminate]. apply String.eqb_eq in H. congruence. Qed.

Lemma top_notification : forall ns t x, Named ns t -> is_kw "notification" t = true -> Flat t ->
  depict ns MNotification t = Ok x -> Mirror ns [] t (read_node x).
Proof.
  intros ns [i ks] x HN HK HF E. apply is_kw_eq in HK. cbn in HK.
  apply (node_mirror ns MNotification i ks x "notification" [] HN HK E).
  - unfold access. rewrite HK. reflexivity.
  - intros l El. apply go_ok in El. inversion HN as [? ? ? ? _ _ _ _ Hks]; subst. unfold Flat in HF. cbn in HF.
    clear E HN. induction El as [| c y ks l Hc El IHl]; [constructor |].
    inversion Hks as [| ? ? N1 N2]; subst. inversion HF as [| ? ? D1 D2]; subst. cbn [map]. constructor; [| apply IHl; auto].
    assert (Ek : exists k', y_kw (yi c) = Kw k') by (inversion N1; cbn; eauto). destruct Ek as (k' & Ek).
    apply (data_mirror c ns MNotification ["notification"] y k' N1 D1 Ek); auto. split; [discriminate |]. intros l0 cfg _. reflexivity.
Qed.

Lemma top_rpc : forall ns t x, Named ns t -> is_kw "rpc" t = true -> Flat t -> InOut t ->
  depict ns MRpc t = Ok x -> Mirror ns [] t (read_node x).
Proof.
  intros ns [i ks] x HN HK HF HI E. specialize (HI HK). apply is_kw_eq in HK. cbn in HK.
  apply (node_mirror ns MRpc i ks x "rpc" [] HN HK E).
  - unfold access. rewrite HK. reflexivity.
  - intros l El. apply go_ok in El. inversion HN as [? ? ? ? _ _ _ _ Hks]; subst. unfold Flat in HF. cbn in HF, HI.
    clear E HN. induction El as [| c y ks l Hc El IHl]; [constructor |].
    inversion Hks as [| ? ? N1 N2]; subst. inversion HF as [| ? ? D1 D2]; subst. cbn [map].
    constructor; [| apply IHl; auto; intros c' Hc'; apply HI; right; auto].
    destruct (HI c (or_introl eq_refl)) as [HC | HC]; pose proof (is_kw_eq _ _ HC) as Ek; unfold child_mode in Hc.
    + rewrite HC in Hc. apply (data_mirror c ns MInput ["rpc"] y "input" N1 D1 Ek); auto. split; [discriminate |]. intros l0 cfg _. reflexivity.
    + assert (HN : is_kw "input" c = false) by (unfold is_kw; rewrite Ek; reflexivity). rewrite HN, HC in Hc.
      apply (data_mirror c ns MOutput ["rpc"] y "output" N1 D1 Ek); auto. split; [discriminate |]. intros l0 cfg _. reflexivity.
Qed.

Lemma compile_mirrors : forall ns kids xs, Forall (Named ns) kids ->
  (forall t, In t kids -> is_data t = true -> DataOnly t) ->
  (forall t, In t kids -> Flat t) -> (forall t, In t kids -> InOut t) ->
  compile_nodes ns kids = Ok xs ->
  Forall2 (Mirror ns []) (filter is_data kids ++ filter (is_kw "rpc") kids ++ filter (is_kw "notification") kids) (map read_node xs).
Proof.
  intros ns kids xs HN HD HF HI E. unfold compile_nodes in E.
  apply bind_ok in E. destruct E as (a & A & E). apply bind_ok in E. destruct E as (b & B & E). apply bind_ok in E. destruct E as (c & C & E).
  injection E as <-. rewrite !map_app.
  assert (G : forall (p : ystmt -> bool) m l, (forall t x, In t kids -> p t = true -> Named ns t -> depict ns m t = Ok x -> Mirror ns [] t (read_node x)) ->
              mapM (depict ns m) (filter p kids) = Ok l -> Forall2 (Mirror ns []) (filter p kids) (map read_node l)).
  { intros p m l Hp Hl. apply mapM_ok in Hl.
    assert (Hin : forall t, In t (filter p kids) -> In t kids /\ p t = true /\ Named ns t).
    { intros t Ht. apply filter_In in Ht. rewrite Forall_forall in HN. destruct Ht. auto. }
    revert Hl Hin. generalize (filter p kids) as q. intros q Hl. induction Hl as [| t x q l Ht Hl IH]; intros Hin; [constructor |].
    cbn [map]. constructor; [| apply IH; intros; apply Hin; right; auto].
    destruct (Hin t (or_introl eq_refl)) as (H1 & H2 & H3). auto. }
  apply Forall2_app; [| apply Forall2_app].
  - apply (G is_data MNone); auto. intros t x H1 H2 H3 H4. apply top_data; auto.
  - apply (G (is_kw "rpc") MRpc); auto. intros t x H1 H2 H3 H4. apply top_rpc; auto.
  - apply (G (is_kw "notification") MNotification); auto. intros t x H1 H2 H3 H4. apply top_notification; auto.
Qed.

Lemma compile_total : forall ns kids, Forall (Named ns) kids -> exists xs, compile_nodes ns kids = Ok xs.
Proof.
  intros ns kids HN. unfold compile_nodes.
  assert (G : forall (p : ystmt -> bool) m, exists l, mapM (depict ns m) (filter p kids) = Ok l).
  { intros p m. induction HN as [| t kids Ht HN IH]; [exists []; reflexivity |]. cbn [filter]. destruct (p t); auto.
    destruct IH as (l & IH). destruct (depict_total t ns m Ht) as (x & Hx). exists (x :: l). cbn [mapM]. rewrite Hx. cbn [bind].
    rewrite IH. reflexivity. }
  destruct (G is_data MNone) as (a & ->). destruct (G (is_kw "rpc") MRpc) as (b & ->). destruct (G (is_kw "notification") MNotification) as (c & ->).
  cbn [bind]. eauto.
Qed.

(** ** Model.__init__ *)
Lemma model_url : forall prefix l u, NoDup (map fst l) -> In (prefix, u) l ->
  exists ps us, model_ns prefix l = Ok (ps, u, us).
Proof.
  intros prefix l u HD Hin. unfold model_ns. change (fold_left (fun d '(p, u0) => dset String.eqb p u0 d) l []) with (set_all l).
  rewrite set_all_look.
  assert (E : look prefix l = Some u).
  { clear -HD Hin. induction l as [| (p, v) l IH]; [destruct Hin |]. cbn in HD. inversion HD as [| ? ? N HD']; subst. cbn [look].
    destruct Hin as [Hin | Hin].
    - injection Hin as -> ->. rewrite look_none by auto. rewrite String.eqb_refl. reflexivity.
    - rewrite IH; auto. }
  rewrite E. eauto.
Qed.
