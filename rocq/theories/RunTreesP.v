(** The commands made from one level of a diff: which there are. *)
From Coq Require Import String Ascii List Bool Arith Lia.
From Verif Require Import Base BaseP RunningM RunSpec RunNestSpec RunDevSpec RunDiffP RunCliP RunDevP RunScriptP RunTextP RunNestP RegexP RunLevelP.
Import ListNotations.
Open Scope string_scope.
Open Scope list_scope.

Lemma cli_item_eq : forall pks sub k v i st, ordinary_key k = true -> cli_item pks sub (It k v i) st =
  match v with
  | None => match i with
            | IPlus => append_command k st
            | IMinus => if existsb (starts k) pks then st else append_command ("no " ++ k) st
            | _ => st
            end
  | Some l => match i with
              | ISame =>
                  let st := if text_empty (fst sub) then st else Clis (c_pos st ++ [k :: rstrip_lines (indent (fst sub))]) (c_neg st) in
                  if text_empty (snd sub) then st else Clis (c_pos st) (c_neg st ++ [k :: rstrip_lines (indent (snd sub))])
              | IPlus => Clis (c_pos st ++ [k :: rstrip_lines (list2config None l)]) (c_neg st)
              | IMinus => append_command ("no " ++ k) st
              | IBoth => st
              end
  end.
Proof. intros pks sub [| c k] v i st O; [discriminate | reflexivity]. Qed.

Section Level.
Variable dv : device.
Variables l1 l2 d : list item.
Hypothesis T1 : tree l1.
Hypothesis T2 : tree l2.
Hypothesis F : facts l1 l2 d.
Hypothesis Q : Settled dv l2.
Hypothesis OB : Obeys dv l2 d.
Hypothesis FD : Forall Fair d.
Hypothesis SUB : forall k w, In (It k (Some w) ISame) d -> exists P M, Cmds w P M.

Let pks := positive_keys d.
Definition pi (x : item) : list cmd := c_pos (item_cli regs pks x (Clis [] [])).
Definition ni (x : item) : list cmd := c_neg (item_cli regs pks x (Clis [] [])).
Lemma append_add : forall c st, append_command c st = Clis (c_pos st ++ c_pos (append_command c (Clis [] []))) (c_neg st ++ c_neg (append_command c (Clis [] []))).
Proof. intros c st. unfold append_command. destruct (handle_command c) as [t []]; cbn; rewrite ?app_nil_r; auto. Qed.
Lemma cli_add : forall sub x st, cli_item pks sub x st = Clis (c_pos st ++ c_pos (cli_item pks sub x (Clis [] []))) (c_neg st ++ c_neg (cli_item pks sub x (Clis [] []))).
Proof.
  intros sub [k v i] [p n]. unfold cli_item. destruct k as [| a k]; [cbn; rewrite !app_nil_r; auto |]. set (K := String a k). destruct v as [l |]; destruct i; cbn [c_pos c_neg]; rewrite ?app_nil_r; auto.
  - destruct (text_empty (fst sub)), (text_empty (snd sub)); cbn; rewrite ?app_nil_r; auto.
  - apply append_add.
  - apply append_add.
  - destruct (existsb (starts K) pks); [cbn; rewrite !app_nil_r; auto | apply append_add].
Qed.
Lemma collect_add : forall l st, collect regs pks l st = Clis (c_pos st ++ flat_map pi l) (c_neg st ++ flat_map ni l).
Proof.
  induction l as [| x l IH]; intros st; [destruct st; cbn; rewrite !app_nil_r; auto |]. cbn [collect fold_left flat_map].
  change (fold_left (fun s x => item_cli regs pks x s) l (item_cli regs pks x st)) with (collect regs pks l (item_cli regs pks x st)).
  rewrite IH. assert (E : item_cli regs pks x st = Clis (c_pos st ++ pi x) (c_neg st ++ ni x)) by (unfold pi, ni; destruct x as [k v i]; cbn [item_cli]; apply cli_add).
  rewrite E. cbn [c_pos c_neg]. rewrite <- !app_assoc. auto.
Qed.
Definition st0 : clis := collect regs pks d (Clis [] []).
Lemma st0_pos : c_pos st0 = flat_map pi d.
Proof. unfold st0. rewrite collect_add. reflexivity. Qed.
Lemma st0_neg : c_neg st0 = flat_map ni d.
Proof. unfold st0. rewrite collect_add. reflexivity. Qed.
Lemma lists_eq : cli_lists regs d = finish regs st0.
Proof. reflexivity. Qed.

(** Keys of the diff *)
Lemma d_key : forall k v i, In (It k v i) d -> ordinary_key k = true /\ unsigned k /\
  forall x, k = ("no " ++ x)%string -> ordinary_key x = true /\ starts "no " x = false.
Proof.
  intros k v i H. assert (X : (exists v i, In (It k v i) l1) \/ (exists v i, In (It k v i) l2)).
  { destruct i.
    - destruct (f_kept _ _ _ F _ _ H) as (v1 & v2 & K & _). eauto.
    - right. exists v, ISame. apply (f_plus _ _ _ F). auto.
    - left. exists v, ISame. apply (f_minus _ _ _ F). auto.
    - destruct (f_info _ _ _ F _ _ H). }
  destruct X as [(v' & i' & X) | (v' & i' & X)].
  - destruct (tree_key _ _ _ _ T1 X) as (A & B & C). split; auto. split; auto. intros x E. apply (C x E).
  - destruct (tree_key _ _ _ _ T2 X) as (A & B & C). split; auto. split; auto. intros x E. apply (C x E).
Qed.
Lemma d_ord : forall k v i, In (It k v i) d -> ordinary_key k = true.
Proof. intros k v i H. destruct (d_key _ _ _ H). auto. Qed.
Lemma section_key : forall k l i, In (It k (Some l) i) d -> starts "no " k = false.
Proof. intros k l i H. destruct (ob_section _ _ _ OB _ _ _ H) as [[A _] _]. auto. Qed.
Lemma no_leaf : forall k v i, In (It k v i) d -> starts "no " k = true -> v = None.
Proof. intros k [l |] i H N; auto. rewrite (section_key _ _ _ H) in N. discriminate. Qed.
Lemma plus_ordinary : forall k v, In (It k v IPlus) d -> ordinary_item (It k v ISame) = true.
Proof. intros k v H. apply (f_plus _ _ _ F) in H. assert (O := t_ord _ T2). unfold ordinary in O. rewrite forallb_forall in O. apply (O _ H). Qed.

(** The command trees *)
Inductive Posi : item -> item -> Prop :=
| po_new : forall k v, starts "no " k = false -> Posi (It k v IPlus) (It k v ISame)
| po_kept : forall k w P M, Cmds w P M -> P <> [] -> Posi (It k (Some w) ISame) (It k (Some P) ISame)
| po_back : forall x, existsb (starts ("no " ++ x)) pks = false -> Posi (It ("no " ++ x) None IMinus) (It x None ISame).
Inductive Negi : item -> item -> Prop :=
| ne_gone : forall k v, starts "no " k = false -> (v = None -> existsb (starts k) pks = false) -> Negi (It k v IMinus) (It (nc k) None ISame)
| ne_new : forall x, Negi (It ("no " ++ x) None IPlus) (It ("no " ++ x) None ISame)
| ne_kept : forall k w P M, Cmds w P M -> M <> [] -> Negi (It k (Some w) ISame) (It k (Some M) ISame).
Definition Pos (t : item) : Prop := exists x, In x d /\ Posi x t.
Definition Neg (t : item) : Prop := exists x, In x d /\ Negi x t.

Lemma block_ordinary : forall k l, ordinary_key k = true -> ordinary l = true -> l <> [] -> ordinary_item (It k (Some l) ISame) = true.
Proof. intros k l K O N. cbn [ordinary_item]. rewrite K. cbn. destruct l; [congruence |]. exact O. Qed.
Lemma Pos_ordinary : forall t, Pos t -> ordinary_item t = true.
Proof.
  intros t (x & H & PX). inversion PX as [k v N | k w P M (C1 & C2 & _) N | u X]; subst; [apply plus_ordinary; auto | |].
  - apply block_ordinary; auto. apply (d_ord _ _ _ H).
  - destruct (d_key _ _ _ H) as (_ & _ & D). destruct (D u eq_refl) as [O _]. cbn [ordinary_item]. rewrite O. reflexivity.
Qed.
Lemma Neg_ordinary : forall t, Neg t -> ordinary_item t = true.
Proof.
  intros t (x & H & NX). inversion NX as [k v N X | u | k w P M (C1 & C2 & _) N]; subst.
  - destruct (d_key _ _ _ H) as (A & _). destruct (nc_spec k A N) as (_ & _ & O & _). cbn [ordinary_item]. rewrite O. reflexivity.
  - apply plus_ordinary; auto.
  - apply block_ordinary; auto. apply (d_ord _ _ _ H).
Qed.

Lemma sub_fine : forall k w, In (It k (Some w) ISame) d -> Forall fine (fst (list2cli regs w)) /\ Forall fine (snd (list2cli regs w)).
Proof.
  intros k w H. rewrite Forall_forall in FD. specialize (FD _ H). inversion FD as [a b c N R U L]; subst. specialize (L w eq_refl).
  destruct (lists_fine regs w L) as [A B]. unfold list2cli. cbn [fst snd]. split; apply join_fine; auto. intros c H1. apply in_rev in H1. auto.
Qed.
Lemma text_nonempty : forall l, ordinary l = true -> text_empty (text 2 l) = match l with [] => true | _ => false end.
Proof.
  intros [| x l] O; auto. destruct (text_head 2 (x :: l) O) as (k & r & E & K); [discriminate |]. rewrite E. destruct (ordinary_head _ K) as (c & q & Ek & _). subst. destruct r; auto.
Qed.

(** What one line of the diff gives *)
Lemma add_plain : forall k, ordinary_key k = true -> starts "no " k = false -> append_command k (Clis [] []) = Clis [[k]] [].
Proof. intros k O N. unfold append_command. rewrite (handle_plain k O N). reflexivity. Qed.
Lemma add_no : forall x, In (It ("no " ++ x) None IPlus) d -> append_command ("no " ++ x) (Clis [] []) = Clis [] [[("no " ++ x)%string]].
Proof.
  intros x H. destruct (d_key _ _ _ H) as (O & _ & D). destruct (D x eq_refl) as [_ N]. unfold append_command. rewrite handle_minus; auto.
  intros sc Hs. apply (ob_no_short _ _ _ OB _ sc H); auto. apply no_starts.
Qed.
Lemma take_plain : forall k, ordinary_key k = true -> starts "no " k = false -> append_command ("no " ++ k) (Clis [] []) = Clis [] [[nc k]].
Proof. intros k O N. unfold append_command. destruct (nc_spec k O N) as (E & _). rewrite E. reflexivity. Qed.
Lemma take_no : forall x, ordinary_key x = true -> append_command ("no " ++ "no " ++ x) (Clis [] []) = Clis [[x]] [].
Proof. intros x O. unfold append_command. rewrite handle_no_no; auto. Qed.
Lemma new_section : forall k l, In (It k (Some l) IPlus) d -> k :: rstrip_lines (list2config None l) = text_item 2 (It k (Some l) ISame).
Proof.
  intros k l H. cbn [text_item]. f_equal. assert (O2 := plus_ordinary _ _ H).
  assert (Ol : ordinary l = true). { cbn [ordinary_item] in O2. apply andb_true_iff in O2. destruct O2 as [_ O2]. apply andb_true_iff in O2. apply O2. }
  rewrite section_commands by auto. apply list2config_text. auto.
Qed.
Lemma pi_all : forall x t, In x d -> Posi x t -> pi x = [text_item 2 t].
Proof.
  intros x t H PX. inversion PX as [k v N | k w P M C N | u X]; subst; destruct (d_key _ _ _ H) as (O & U & D); unfold pi; rewrite item_cli_eq, (cli_item_eq _ _ _ _ _ _ O); cbv beta iota zeta.
  - destruct v as [l |]; [cbn [c_pos app]; rewrite new_section by auto; auto |]. rewrite add_plain by auto. reflexivity.
  - destruct (sub_fine _ _ H) as [F1 F2]. pose proof C as (C1 & C2 & C3 & C4). set (sub := list2cli regs w) in *. rewrite <- C3, (text_nonempty _ C1). destruct P as [| t P]; [congruence |].
    rewrite section_lines by (rewrite C3; auto). destruct (text_empty (snd sub)); reflexivity.
  - rewrite X. rewrite take_no by apply (D u eq_refl). reflexivity.
Qed.
Lemma pi_spec : forall x, In x d -> pi x = [] \/ exists t, pi x = [text_item 2 t] /\ Posi x t.
Proof.
  intros [k v i] H. assert (G : forall t, Posi (It k v i) t -> pi (It k v i) = [] \/ exists t, pi (It k v i) = [text_item 2 t] /\ Posi (It k v i) t).
  { intros t PX. right. exists t. split; auto. apply pi_all; auto. }
  destruct (d_key _ _ _ H) as (O & U & D). destruct v as [l |]; destruct i.
  - destruct (SUB _ _ H) as (P & M & C). destruct P as [| t P]; [| apply (G (It k (Some (t :: P)) ISame)); apply (po_kept k l (t :: P) M); auto; discriminate].
    left. unfold pi. rewrite item_cli_eq, (cli_item_eq _ _ _ _ _ _ O); cbv beta iota zeta. pose proof C as (C1 & C2 & C3 & C4). set (sub := list2cli regs l) in *. rewrite <- C3. change (text_empty (text 2 [])) with true. cbv iota. destruct (text_empty (snd sub)); reflexivity.
  - apply (G (It k (Some l) ISame)). constructor. apply (section_key _ _ _ H).
  - left. unfold pi. rewrite item_cli_eq, (cli_item_eq _ _ _ _ _ _ O); cbv beta iota zeta. rewrite take_plain; auto. apply (section_key _ _ _ H).
  - destruct (f_info _ _ _ F _ _ H).
  - left. unfold pi. rewrite item_cli_eq, (cli_item_eq _ _ _ _ _ _ O). reflexivity.
  - destruct (starts "no " k) eqn:N; [| apply (G (It k None ISame)); constructor; auto]. left. destruct (no_split _ N) as (x & E). subst k.
    unfold pi. rewrite item_cli_eq, (cli_item_eq _ _ _ _ _ _ O); cbv beta iota zeta. rewrite add_no by auto. reflexivity.
  - destruct (starts "no " k) eqn:N.
    + destruct (no_split _ N) as (x & E). subst k. destruct (existsb (starts ("no " ++ x)) pks) eqn:X; [| apply (G (It x None ISame)); constructor; auto].
      left. unfold pi. rewrite item_cli_eq, (cli_item_eq _ _ _ _ _ _ O); cbv beta iota zeta. rewrite X. reflexivity.
    + left. unfold pi. rewrite item_cli_eq, (cli_item_eq _ _ _ _ _ _ O); cbv beta iota zeta. rewrite take_plain by auto. destruct (existsb (starts k) pks); reflexivity.
  - destruct (f_info _ _ _ F _ _ H).
Qed.
Lemma ni_all : forall x t, In x d -> Negi x t -> ni x = [text_item 2 t].
Proof.
  intros x t H NX. inversion NX as [k v N X | u | k w P M C N]; subst; destruct (d_key _ _ _ H) as (O & U & D); unfold ni; rewrite item_cli_eq, (cli_item_eq _ _ _ _ _ _ O); cbv beta iota zeta.
  - rewrite take_plain by auto. destruct v as [l |]; [reflexivity |]. rewrite X by auto. reflexivity.
  - rewrite add_no by auto. reflexivity.
  - destruct (sub_fine _ _ H) as [F1 F2]. pose proof C as (C1 & C2 & C3 & C4). set (sub := list2cli regs w) in *. rewrite <- C4, (text_nonempty _ C2). destruct M as [| t M]; [congruence |].
    rewrite (section_lines (text 2 (t :: M))) by (rewrite C4; auto). destruct (text_empty (fst sub)); reflexivity.
Qed.
Lemma ni_spec : forall x, In x d -> ni x = [] \/ exists t, ni x = [text_item 2 t] /\ Negi x t.
Proof.
  intros [k v i] H. assert (G : forall t, Negi (It k v i) t -> ni (It k v i) = [] \/ exists t, ni (It k v i) = [text_item 2 t] /\ Negi (It k v i) t).
  { intros t PX. right. exists t. split; auto. apply ni_all; auto. }
  destruct (d_key _ _ _ H) as (O & U & D). destruct v as [l |]; destruct i.
  - destruct (SUB _ _ H) as (P & M & C). destruct M as [| t M]; [| apply (G (It k (Some (t :: M)) ISame)); apply (ne_kept k l P (t :: M)); auto; discriminate].
    left. unfold ni. rewrite item_cli_eq, (cli_item_eq _ _ _ _ _ _ O); cbv beta iota zeta. pose proof C as (C1 & C2 & C3 & C4). set (sub := list2cli regs l) in *. rewrite <- C4. change (text_empty (text 2 [])) with true. cbv iota. destruct (text_empty (fst sub)); reflexivity.
  - left. unfold ni. rewrite item_cli_eq, (cli_item_eq _ _ _ _ _ _ O). reflexivity.
  - apply (G (It (nc k) None ISame)). constructor; [apply (section_key _ _ _ H) | discriminate].
  - destruct (f_info _ _ _ F _ _ H).
  - left. unfold ni. rewrite item_cli_eq, (cli_item_eq _ _ _ _ _ _ O). reflexivity.
  - destruct (starts "no " k) eqn:N; [destruct (no_split _ N) as (x & E); subst k; apply (G (It ("no " ++ x) None ISame)); constructor |]. left.
    unfold ni. rewrite item_cli_eq, (cli_item_eq _ _ _ _ _ _ O); cbv beta iota zeta. rewrite add_plain by auto. reflexivity.
  - destruct (starts "no " k) eqn:N.
    + left. destruct (no_split _ N) as (x & E). subst k. unfold ni. rewrite item_cli_eq, (cli_item_eq _ _ _ _ _ _ O); cbv beta iota zeta. rewrite take_no by apply (D x eq_refl). destruct (existsb _ pks); reflexivity.
    + destruct (existsb (starts k) pks) eqn:X; [| apply (G (It (nc k) None ISame)); constructor; auto].
      left. unfold ni. rewrite item_cli_eq, (cli_item_eq _ _ _ _ _ _ O); cbv beta iota zeta. rewrite X. reflexivity.
  - destruct (f_info _ _ _ F _ _ H).
Qed.

(** ** Dropped commands *)
Lemma pos_In : forall c, In c (c_pos st0) <-> exists t, Pos t /\ c = text_item 2 t.
Proof.
  intros c. rewrite st0_pos. split.
  - intros H. apply in_flat_map in H. destruct H as (x & H1 & H2). destruct (pi_spec x H1) as [E | (t & E & P)]; rewrite E in H2; [destruct H2 |].
    destruct H2 as [H2 | []]. exists t. split; [exists x; auto | auto].
  - intros (t & (x & H & P) & E). subst. apply in_flat_map. exists x. split; auto. rewrite (pi_all _ _ H P). left. auto.
Qed.
Lemma neg_In : forall c, In c (c_neg st0) <-> exists t, Neg t /\ c = text_item 2 t.
Proof.
  intros c. rewrite st0_neg. split.
  - intros H. apply in_flat_map in H. destruct H as (x & H1 & H2). destruct (ni_spec x H1) as [E | (t & E & P)]; rewrite E in H2; [destruct H2 |].
    destruct H2 as [H2 | []]. exists t. split; [exists x; auto | auto].
  - intros (t & (x & H & P) & E). subst. apply in_flat_map. exists x. split; auto. rewrite (ni_all _ _ H P). left. auto.
Qed.
Lemma section_text : forall k l i, ordinary_item (It k (Some l) i) = true -> exists a b, text_item 2 (It k (Some l) i) = k :: a :: b.
Proof.
  intros k l i O. cbn [ordinary_item] in O. apply andb_true_iff in O. destruct O as [_ O]. apply andb_true_iff in O. destruct O as [O1 O2].
  destruct (text_head 2 l O2) as (a & b & E & _); [destruct l; discriminate |]. cbn [text_item]. unfold text in E. rewrite E. cbn [map]. eauto.
Qed.
(** Commands of one line *)
Lemma text_leaf : forall t u, ordinary_item t = true -> text_item 2 t = [u] -> exists i, t = It u None i.
Proof.
  intros [k v i] u O E. destruct v as [l |]; [| cbn [text_item] in E; injection E as E; subst; eauto].
  destruct (section_text _ _ _ O) as (a & b & E2). rewrite E2 in E. discriminate.
Qed.
Lemma Pos_leaf : forall t u, Pos t -> text_item 2 t = [u] -> t = It u None ISame /\ Made d u /\ ~ Negates u /\ ordinary_key u = true.
Proof.
  intros t u H E. assert (O := Pos_ordinary _ H). destruct (text_leaf _ _ O E) as (i & Et). destruct H as (x & H & PX). clear O E. subst t.
  inversion PX as [k v N | k w P M C N | x' X]; subst.
  - split; auto. split; [constructor; auto |]. unfold Negates. split; [congruence | apply (d_ord _ _ _ H)].
  - split; auto. destruct (d_key _ _ _ H) as (_ & _ & D). destruct (D u eq_refl) as [D1 D2]. split; [apply (made_gone d _ None u H); constructor |]. unfold Negates. split; [congruence | auto].
Qed.
Lemma Neg_leaf : forall t u, Neg t -> text_item 2 t = [u] -> t = It u None ISame /\ Made d u /\ Negates u /\ ordinary_key u = true.
Proof.
  intros t u H E. assert (O := Neg_ordinary _ H). destruct (text_leaf _ _ O E) as (i & Et). destruct H as (x & H & PX). clear O E. subst t.
  inversion PX as [k v N X | x' | k w P M C N]; subst.
  - split; auto. destruct (nc_spec k (d_ord _ _ _ H) N) as (_ & UN & ON & y & E & _). split; [apply (made_gone d _ _ _ H); auto |]. split; auto. rewrite E. apply no_starts.
  - split; auto. split; [constructor; auto |]. split; [apply no_starts | apply (d_ord _ _ _ H)].
Qed.
Lemma pos_match : forall t ps m, Pos t -> In ps regs -> over_match ps (text_item 2 t) = Some m ->
  exists k rest, t = It k None ISame /\ text_item 2 t = [k] /\ k = (m ++ rest)%string /\ Match ps m rest /\ Made d k /\ ~ Negates k /\ ordinary_key k = true.
Proof.
  intros t ps m H Hp M. assert (O := Pos_ordinary t H). assert (X : (exists k, text_item 2 t = [k]) \/ exists k l i a b, In (It k (Some l) i) d /\ text_item 2 t = k :: a :: b).
  { destruct H as (x & H & PX). inversion PX as [k v N | k w P N H1 C | u X]; subst; [destruct v as [l |] | |]; [right | left; cbn; eauto | right | left; cbn; eauto];
      destruct (section_text _ _ _ O) as (a & b & E); rewrite E; eauto 8. }
  destruct X as [(k & E) | (k & l & i & a & b & I1 & E)].
  - destruct (Pos_leaf _ _ H E) as (Et & D1 & D2 & D3). rewrite E in M. cbn [over_match] in M. apply overwritable_match in M; auto. destruct M as (rest & Ek & M). exists k, rest. auto 8.
  - exfalso. destruct (ob_section _ _ _ OB _ _ _ I1) as [(_ & _ & K) _]. rewrite E in M. cbn [over_match] in M. rewrite (K ps Hp) in M. discriminate.
Qed.
Lemma OfKind_one : forall k e e', ordinary_key k = true -> OfKind k e -> OfKind k e' -> e = e'.
Proof.
  intros k e e' O (ps & m & r & I1 & E & M & Ee) (ps' & m' & r' & I1' & E' & M' & Ee'). assert (X : ps = ps') by apply (kind_one ps ps' k m r m' r' I1 I1' O E M E' M'). subst ps'.
  assert (A : re_match ps k = Some m) by (apply overwritable_match; eauto). assert (B : re_match ps k = Some m') by (apply overwritable_match; eauto). congruence.
Qed.
Lemma SK : forall c1 c2 ps ps' m m', In c1 (c_pos st0) -> In c2 (c_pos st0) -> In ps regs -> In ps' regs -> over_match ps c1 = Some m -> over_match ps' c2 = Some m' -> strip m = strip m' -> ps = ps'.
Proof.
  intros c1 c2 ps ps' m m' H1 H2 P1 P2 M1 M2 E. apply pos_In in H1. apply pos_In in H2. destruct H1 as (t1 & H1 & E1), H2 as (t2 & H2 & E2). subst c1 c2.
  destruct (pos_match _ _ _ H1 P1 M1) as (k1 & r1 & _ & _ & E1 & Q1 & _ & _ & O1). destruct (pos_match _ _ _ H2 P2 M2) as (k2 & r2 & _ & _ & E2 & Q2 & _ & _ & O2).
  apply (same_kind ps ps' k1 k2 m r1 m' r2); auto.
Qed.
Definition cmd_dec : forall a b : cmd, {a = b} + {a <> b} := list_eq_dec string_dec.
Lemma last_split : forall (l : list cmd) x, In x l -> exists A B, l = A ++ x :: B /\ ~ In x B.
Proof.
  induction l as [| y l IH]; intros x H; [destruct H |]. destruct (in_dec cmd_dec x l) as [I1 | N].
  - destruct (IH x I1) as (A & B & E & NB). exists (y :: A), B. subst l. auto.
  - destruct H as [H | H]; [| tauto]. subst y. exists [], l. auto.
Qed.
Lemma tail_incl : forall (X : list cmd) A c Y B, X ++ c :: Y = A ++ c :: B -> ~ In c B -> incl B Y.
Proof.
  induction X as [| x X IH]; intros A c Y B E N.
  - destruct A as [| a A]; cbn in E; [injection E as E; subst; apply incl_refl |]. injection E as E1 E2; subst. intros z Hz. apply in_or_app. right. right. auto.
  - destruct A as [| a A]; cbn in E; injection E as E1 E2; subst; [exfalso; apply N; apply in_or_app; right; left; auto |]. apply (IH A c); auto.
Qed.

Definition fin : clis := finish regs st0.
Lemma pos_incl : forall c, In c (c_pos fin) -> exists t, Pos t /\ c = text_item 2 t.
Proof.
  intros c H. unfold fin, finish in H. cbn [c_pos] in H. apply prune_positive_incl in H. apply dedup_In in H. destruct H as [H _]. apply pos_In.
  unfold overwrite in H. cbn [c_pos] in H. apply in_map_iff in H. destruct H as ([i c'] & E & H). cbn in E. subst c'. apply filter_In in H. destruct H as [H _]. apply in_combine_r in H. auto.
Qed.
Lemma neg_incl : forall c, In c (c_neg fin) -> exists t, Neg t /\ c = text_item 2 t.
Proof.
  intros c H. unfold fin, finish in H. cbn [c_neg] in H. apply prune_negative_incl in H. apply dedup_In in H. destruct H as [H _].
  apply overwrite_neg_incl in H. apply neg_In. auto.
Qed.
Lemma over_pos_incl : forall c, In c (c_pos (overwrite regs st0)) -> exists t, Pos t /\ c = text_item 2 t.
Proof.
  intros c H. apply pos_In. unfold overwrite in H. cbn [c_pos] in H. apply in_map_iff in H. destruct H as ([i c'] & E & H). cbn in E. subst c'. apply filter_In in H. destruct H as [H _]. apply in_combine_r in H. auto.
Qed.
Lemma proper : forall a b, shorter_prefix a b = true -> Begins a b /\ a <> b.
Proof.
  intros a b X. apply shorter_prefix_iff in X. destruct X as (r & E & N). split; [exists r; auto |]. intros Eq. apply N. subst b.
  assert (L : String.length a = String.length (a ++ r)) by (f_equal; auto). rewrite append_length in L. destruct r; auto. cbn in L. lia.
Qed.
(** Sections are kept. *)
Lemma pos_block : forall k l, Pos (It k (Some l) ISame) -> In (text_item 2 (It k (Some l) ISame)) (c_pos fin).
Proof.
  intros k l H. assert (O := Pos_ordinary _ H). destruct (section_text _ _ _ O) as (a & b & E). unfold fin. apply finish_pos_section; [apply pos_In; eauto | rewrite E; auto |].
  intros ps Hp. destruct (over_match ps (text_item 2 (It k (Some l) ISame))) as [m |] eqn:M; auto. destruct (pos_match _ _ _ H Hp M) as (k' & r & Et & _). discriminate.
Qed.
Lemma neg_block : forall k l, Neg (It k (Some l) ISame) -> In (text_item 2 (It k (Some l) ISame)) (c_neg fin).
Proof.
  intros k l H. assert (O := Neg_ordinary _ H). destruct (section_text _ _ _ O) as (a & b & E).
  unfold fin, finish. cbn [c_neg]. apply prune_negative_multi; [| rewrite E; auto]. apply dedup_In. split; [| intros []].
  apply overwrite_neg; [apply neg_In; eauto |]. intros c' ps m _ _ _. rewrite E. cbn [neg_matches].
  destruct H as (x & H & NX). inversion NX as [| | k' w P M C N]; subst. destruct (d_key _ _ _ H) as (O1 & _). assert (N1 := section_key _ _ _ H). destruct (ordinary_clean _ O1) as (_ & _ & L & _). rewrite L.
  destruct (starts ("no " ++ lstrip m) k) eqn:S0; auto. apply starts_iff in S0. destruct S0 as (r & S0).
  rewrite (proj2 (starts_iff "no " k)) in N1; [discriminate |]. exists (lstrip m ++ r)%string. rewrite S0. apply append_assoc.
Qed.
(** Added lines are kept. *)
Lemma pos_new : forall k, In (It k None IPlus) d -> starts "no " k = false -> In [k] (c_pos fin).
Proof.
  intros k H N. assert (PK : Pos (It k None ISame)) by (exists (It k None IPlus); split; auto; constructor; auto). assert (NN : ~ Negates k) by (unfold Negates; congruence).
  assert (H0 : In [k] (c_pos st0)) by (apply pos_In; eauto).
  assert (H1 : In [k] (c_pos (overwrite regs st0))).
  { destruct (last_split _ _ H0) as (A & B & E & NB). apply (over_last st0 A [k] B E SK). intros c' ps m m' Hc Hp M M' Es.
    assert (C' : In c' (c_pos st0)) by (rewrite E; apply in_or_app; right; right; auto). apply pos_In in C'. destruct C' as (t' & P' & Et'). subst c'.
    destruct (pos_match _ _ _ PK Hp M) as (k0 & r & E0 & _ & Ek & MM & MK & _). injection E0 as E0. subst k0.
    destruct (pos_match _ _ _ P' Hp M') as (u & r' & Et & Ex & Eu & MM' & MU & NU & OU). rewrite Ex in *.
    assert (NE : u <> k) by (intros X; subst u; rewrite X in Hc; auto). assert (K1 : OfKind k (strip m)) by (exists ps, m, r; auto). assert (K2 : OfKind u (strip m)) by (exists ps, m', r'; auto).
    destruct (in_split _ _ H) as (d1 & d2 & Ed). assert (I2 : In [u] (flat_map pi d2)).
    { rewrite st0_pos, Ed, flat_map_app in E. cbn [flat_map] in E. rewrite (pi_all (It k None IPlus) (It k None ISame)) in E; [| auto | constructor; auto]. cbn [text_item app] in E.
      apply (tail_incl _ _ _ _ _ E NB). auto. }
    apply in_flat_map in I2. destruct I2 as (z & Z1 & Z2). assert (Zd : In z d) by (rewrite Ed; apply in_or_app; right; right; auto).
    destruct (pi_spec z Zd) as [E2 | (t2 & E2 & PZ)]; rewrite E2 in Z2; [destruct Z2 |]. destruct Z2 as [Z2 | []].
    destruct (Pos_leaf t2 u) as (Et2 & _); [exists z; auto | auto |]. subst t2. assert (ZZ : z = It u None IPlus \/ z = It ("no " ++ u) None IMinus) by (inversion PZ; auto). destruct ZZ as [ZZ | ZZ]; subst z.
    - apply NE. apply (ob_one _ _ _ OB u k (strip m)); auto.
    - destruct (ob_turn _ _ _ OB u (strip m) k) as (_ & _ & _ & T); auto. apply (T d1 d2 Ed). auto. }
  unfold fin, finish. cbn [c_pos]. apply filter_In. split; [apply dedup_In; split; auto |]. destruct (positive_candidate [k]) as [u |] eqn:U; auto. apply negb_true_iff.
  destruct (existsb _ _) eqn:X; auto. exfalso. apply existsb_exists in X. destruct X as (c' & H' & X). destruct (positive_candidate c') as [u' |] eqn:U'; [| discriminate].
  apply dedup_In in H'. destruct H' as [H' _]. apply over_pos_incl in H'. destruct H' as (t' & P' & E'). apply proper in X. destruct X as [B1 B2].
  assert (CO : forall c u, positive_candidate c = Some u -> c = [u] /\ ~ In u coexist_commands).
  { intros c0 u0 U0. pose proof (candidate_line _ _ U0) as CL. assert (c0 = [u0]) by (destruct c0 as [| a [| b r]]; inversion CL; auto). subst c0. split; auto.
    unfold positive_candidate in U0. cbn [one_line] in U0. destruct (smem u0 coexist_commands) eqn:S0; [discriminate |]. apply smem_nIn. auto. }
  destruct (CO _ _ U) as [C1 C2]. destruct (CO _ _ U') as [C1' C2']. injection C1 as C1. subst u c'. destruct (Pos_leaf _ _ P' C1') as (_ & MU & NU & _).
  destruct (ob_apart _ _ _ OB k u') as [Y | Y]; auto.
Qed.
Lemma neg_new : forall x, In (It ("no " ++ x) None IPlus) d -> In [("no " ++ x)%string] (c_neg fin).
Proof.
  intros x H. destruct (d_key _ _ _ H) as (O & _ & D). destruct (D x eq_refl) as [Ox Nx]. destruct (ordinary_clean _ O) as (_ & _ & L & _). destruct (ordinary_clean _ Ox) as (_ & _ & Lx & _).
  assert (NK : Neg (It ("no " ++ x) None ISame)) by (exists (It ("no " ++ x) None IPlus); split; auto; constructor).
  assert (H1 : In [("no " ++ x)%string] (c_neg (overwrite regs st0))).
  { apply overwrite_neg; [apply neg_In; eauto |]. intros c' ps m C1 Hp M. destruct (neg_matches m [("no " ++ x)%string]) eqn:NM; auto. exfalso.
    apply pos_In in C1. destruct C1 as (t & Pt & Ec). subst c'. destruct (pos_match _ _ _ Pt Hp M) as (k & r & _ & _ & Ek & MM & MK & NN & Ok). destruct (ordinary_clean _ Ok) as (_ & _ & Lk & _).
    cbn [neg_matches] in NM. rewrite L in NM. apply starts_iff in NM. destruct (Begins_strip m k Lk) as [_ LM]; [exists r; auto |]. rewrite LM in NM. apply Begins_tail in NM.
    apply (ob_no_kind _ _ _ OB x k (strip m)); auto; [exists ps, m, r; auto |]. apply (Begins_strip m x Lx). auto. }
  unfold fin, finish. cbn [c_neg]. apply filter_In. split; [apply dedup_In; split; auto |]. cbn [one_line]. apply negb_true_iff.
  destruct (existsb _ _) eqn:X; auto. exfalso. apply existsb_exists in X. destruct X as (c' & H' & X). destruct (one_line c') as [u' |] eqn:U'; [| discriminate].
  apply dedup_In in H'. destruct H' as [H' _]. apply overwrite_neg_incl in H'. apply neg_In in H'. destruct H' as (t' & P' & E'). apply proper in X. destruct X as [B1 B2].
  assert (CU : c' = [u']) by (destruct c' as [| a [| b r]]; inversion U'; auto). rewrite CU in E'. destruct (Neg_leaf _ _ P' (eq_sym E')) as (_ & MU & NU & _).
  apply B2. apply (ob_no_apart _ _ _ OB ("no " ++ x)%string u'); auto. apply no_starts.
Qed.
(** A removed line that begins with "no " *)
Lemma back_fin : forall x, Pos (It x None ISame) -> In (It ("no " ++ x) None IMinus) d ->
  exists c, In [c] (c_pos fin) /\ Made d c /\ ~ Negates c /\ evicts dv c ("no " ++ x) = true /\ forall e, OfKind x e -> OfKind c e.
Proof.
  intros x PX H. assert (H0 : In [x] (c_pos st0)) by (apply pos_In; eauto). destruct (last_split _ _ H0) as (A & B & E & NB). destruct (Pos_leaf _ _ PX eq_refl) as (_ & _ & _ & OX).
  destruct (existsb (fun c' => existsb (fun ps => match over_match ps [x], over_match ps c' with Some m, Some m' => String.eqb (strip m) (strip m') | _, _ => false end) regs) B) eqn:X.
  - apply existsb_exists in X. destruct X as (c' & Hc & X). apply existsb_exists in X. destruct X as (ps & Hp & X). destruct (over_match ps [x]) as [m |] eqn:M; [| discriminate].
    destruct (over_match ps c') as [m' |] eqn:M'; [| discriminate]. apply String.eqb_eq in X.
    assert (C' : In c' (c_pos st0)) by (rewrite E; apply in_or_app; right; right; auto). apply pos_In in C'. destruct C' as (t' & P' & Et'). subst c'.
    destruct (pos_match _ _ _ PX Hp M) as (k0 & r & E0 & _ & Ek & MM & MK & _). injection E0 as E0. subst k0.
    destruct (pos_match _ _ _ P' Hp M') as (u & r' & Et & Ex & Eu & MM' & MU & NU & OU). rewrite Ex in *.
    assert (NE : u <> x) by (intros Y; subst u; rewrite Y in Hc; auto). assert (K1 : OfKind x (strip m)) by (exists ps, m, r; auto). assert (K2 : OfKind u (strip m)) by (exists ps, m', r'; auto).
    destruct (ob_turn _ _ _ OB x (strip m) u) as (_ & I1 & EV & _); auto. exists u. split; [apply pos_new; auto; unfold Negates in NU; destruct (starts "no " u); tauto |].
    do 3 (split; auto). intros e Ke. rewrite (OfKind_one x e (strip m)); auto.
  - assert (H1 : In [x] (c_pos (overwrite regs st0))).
    { apply (over_last st0 A [x] B E SK). intros c' ps m m' Hc Hp M M' Es. rewrite (proj2 (existsb_exists _ _)) in X; [discriminate |]. exists c'. split; auto.
      apply existsb_exists. exists ps. split; auto. rewrite M, M'. apply String.eqb_eq. auto. }
    destruct (prune_positive_keeps (remove_duplicates (c_pos (overwrite regs st0))) x) as (c & C1 & C2); [apply dedup_In; split; auto |].
    change (In [c] (c_pos fin)) in C1. destruct (pos_incl _ C1) as (t & Pt & Et). destruct (Pos_leaf _ _ Pt (eq_sym Et)) as (_ & MU & NU & _). exists c. do 3 (split; auto).
    split; [apply (ob_beyond _ _ _ OB); auto |]. intros e Ke. destruct (string_dec c x) as [| NE]; [congruence |]. destruct (ob_turn _ _ _ OB x e c) as (T & _); auto.
Qed.
(** A command of a kind, or another one of this kind, is kept. *)
Lemma kind_fin : forall u e, Pos (It u None ISame) -> OfKind u e -> exists c, In [c] (c_pos fin) /\ Made d c /\ ~ Negates c /\ OfKind c e.
Proof.
  intros u e H K. destruct (Pos_leaf _ _ H eq_refl) as (_ & MU & NU & _). destruct H as (x & H & PX). inversion PX as [k v N | k w P M C N | u' X]; subst.
  - exists u. split; auto. apply pos_new; auto.
  - destruct (back_fin u) as (c & C1 & C2 & C3 & _ & C5); auto; [exists (It ("no " ++ u) None IMinus); auto |]. exists c. auto.
Qed.
Lemma suppressed : forall k, existsb (starts k) pks = true -> exists k', In (It k' None IPlus) d /\ Begins k k'.
Proof.
  intros k X. apply existsb_exists in X. destruct X as (k' & X1 & X2). apply starts_iff in X2. exists k'. split; auto.
  unfold pks, positive_keys in X1. apply in_map_iff in X1. destruct X1 as ([k2 v2 i2] & Y1 & Y2). cbn in Y1. subst k2. apply filter_In in Y2. destruct Y2 as [Y2 Y3].
  cbn [iinfo ival] in Y3. apply andb_true_iff in Y3. destruct Y3 as [Y3 Y4]. apply info_eqb_eq in Y3. subst i2. destruct v2; [discriminate | auto].
Qed.
(** Every removed line goes. *)
Lemma gone : forall k v, In (It k v IMinus) d ->
  (In (It k None IPlus) d /\ v = None) \/ exists c, (In [c] (c_pos fin) \/ In [c] (c_neg fin)) /\ c <> k /\ evicts dv c k = true.
Proof.
  intros k v H. destruct (d_key _ _ _ H) as (O & _ & D).
  assert (FN : forall k', In (It k' None IPlus) d -> In [k'] (c_pos fin) \/ In [k'] (c_neg fin)).
  { intros k' I1. destruct (starts "no " k') eqn:N; [right; destruct (no_split _ N) as (x & E); subst; apply neg_new; auto | left; apply pos_new; auto]. }
  assert (SP : v = None -> existsb (starts k) pks = true -> (In (It k None IPlus) d /\ v = None) \/ exists c, (In [c] (c_pos fin) \/ In [c] (c_neg fin)) /\ c <> k /\ evicts dv c k = true).
  { intros E X. subst v. destruct (suppressed _ X) as (k' & I1 & B). destruct (string_dec k' k) as [| NE]; [subst; auto |]. right. exists k'. split; auto. split; auto. apply (ob_longer _ _ _ OB); auto. }
  destruct (starts "no " k) eqn:N.
  - assert (v = None) by apply (no_leaf _ _ _ H N). subst v. destruct (existsb (starts k) pks) eqn:X; [auto |]. right. destruct (no_split _ N) as (x & E). subst k.
    destruct (back_fin x) as (c & C1 & C2 & C3 & C4 & _); auto; [exists (It ("no " ++ x) None IMinus); split; auto; constructor; auto |]. exists c. split; auto. split; auto.
    intros E. apply C3. rewrite E. apply no_starts.
  - destruct (nc_spec k O N) as (HC & UN & ON & x & E & BK).
    assert (X : (v = None /\ existsb (starts k) pks = true) \/ Neg (It (nc k) None ISame)).
    { destruct v as [l |]; [right; exists (It k (Some l) IMinus); split; auto; constructor; auto; discriminate |]. destruct (existsb (starts k) pks) eqn:X; auto.
      right. exists (It k None IMinus). split; auto. constructor; auto. }
    destruct X as [[X1 X2] | X]; [auto |]. assert (H0 : In [nc k] (c_neg st0)) by (apply neg_In; eauto).
    destruct (existsb (fun c' => existsb (fun ps => match over_match ps c' with Some m => neg_matches m [nc k] | None => false end) regs) (c_pos st0)) eqn:B.
    + apply existsb_exists in B. destruct B as (c' & C1 & C2). apply existsb_exists in C2. destruct C2 as (ps & P1 & P2).
      destruct (over_match ps c') as [m |] eqn:M; [| discriminate]. apply pos_In in C1. destruct C1 as (t & Pt & Ec). subst c'.
      destruct (pos_match _ _ _ Pt P1 M) as (k' & r & Et & _ & Ek & MM & _ & _ & O'). subst t.
      assert (BE : Begins (strip m) k).
      { cbn [neg_matches] in P2. destruct (ordinary_clean _ ON) as (_ & _ & L & _). rewrite L, E in P2. apply starts_iff in P2. destruct (ordinary_clean _ O') as (_ & _ & L' & _).
        destruct (Begins_strip m k' L') as [_ LM]; [exists r; auto |]. rewrite LM in P2. apply Begins_tail in P2. destruct (ordinary_clean _ O) as (_ & _ & Lk & _). apply (Begins_strip m k Lk). apply (Begins_trans m x k); auto. }
      destruct (kind_fin k' (strip m) Pt) as (c & C1 & C2 & C3 & C4); [exists ps, m, r; auto |].
      destruct (string_dec c k) as [EQ | NE].
      * (* the line itself is entered again *)
        subst c. left. inversion C2 as [k0 I0 | k0 v0 u0 I0 U0]; subst.
        { split; auto. destruct v as [l |]; auto. exfalso. destruct (ob_section _ _ _ OB _ _ _ H) as [_ Y]. apply (Y _ C4). }
        exfalso. inversion U0 as [k1 N1 S1 | k1 sc N1 S1 S2 | x1]; subst.
        { apply C3. apply no_starts. }
        { apply C3. clear - S1. cbn [short_no_commands In] in S1. repeat (destruct S1 as [S1 | S1]; [subst sc; vm_compute; reflexivity |]). destruct S1. }
        apply (ob_both _ _ _ OB k v H). assert (v0 = None) by (apply (no_leaf _ _ _ I0); apply no_starts). subst v0. auto.
      * right. exists c. split; auto. split; auto. apply (ob_kind _ _ _ OB c (strip m) k v); auto.
    + right. destruct (finish_neg regs st0 (nc k) H0) as (t' & I1 & B1).
      { intros c' ps m C1 P1 M. destruct (neg_matches m [nc k]) eqn:NM; auto. exfalso. rewrite (proj2 (existsb_exists _ _)) in B; [discriminate |].
        exists c'. split; auto. apply existsb_exists. exists ps. split; auto. rewrite M. auto. }
      change (In [t'] (c_neg fin)) in I1. destruct (neg_incl _ I1) as (t & Nt & Et). destruct (Neg_leaf _ _ Nt (eq_sym Et)) as (_ & MU & NU & _). exists t'. split; auto.
      split; [intros E2; subst t'; unfold Negates in NU; congruence |]. apply (ob_with _ _ _ OB k v (nc k) t'); auto.
Qed.
End Level.
