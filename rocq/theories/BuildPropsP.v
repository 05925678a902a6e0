(** Example modules for C80. *)
From Coq Require Import String Ascii List Bool.
From Verif Require Import Base BaseP XmlM CompileM CompilePropsP DepictM TypeM TypePropsP DepsM BuildM BuildSpec BuildP.
Import ListNotations.
Open Scope string_scope.
Open Scope list_scope.

Definition bu_info (kw arg m : string) : yinfo := YInfo (Kw kw) arg m (Some true) None [] None None None None [] false None [] [] None.
Definition bu_leaf (m name : string) (t : ytype) : rstmt := RStmt (bu_info "leaf" name m) m (Some t) [].
(** A toy language: the text of a module is the name of its leaf; t and u have the identities
    of C48. A module that is in the folder is read, in the order asked for. *)
Definition bu_m (m : string) : mstmt := if String.eqb m "t" then ex_t else if String.eqb m "u" then ex_u else MStmt true m m [(m, m)] [].
Definition bu_mod (t : ytype) (m text : string) : cmod :=
  CMod (bu_m m) (Some ("urn:" ++ m)%string) (Some (ms_prefix (bu_m m))) [RStmt (bu_info "container" (m ++ "-top")%string m) m None [bu_leaf m text t]].
Definition bu_pyang (t : ytype) (y : list (string * string)) (l : list string) : res (list cmod) :=
  Ok (flat_map (fun m => match assoc String.eqb m y with Some text => [bu_mod t m text] | None => [] end) l).
(** u imports t *)
Definition bu_load (y : list (string * string)) : list xml :=
  map (fun kv => Elem "module" None [("id", fst kv)]
                   (if String.eqb (fst kv) "u" then [Elem "imports" None [] [Elem "import" None [("module", "t")] []]] else [])) y.
Definition bu_files : list (string * string) := [("t", "size"); ("u", "kind")].
Lemma bu_name : forall m, ms_module (bu_m m) = true /\ ms_name (bu_m m) = m.
Proof.
  intro m. unfold bu_m. destruct (String.eqb_spec m "t") as [-> |]; [split; reflexivity |].
  destruct (String.eqb_spec m "u") as [-> |]; split; reflexivity.
Qed.
Lemma bu_in : forall t y l mods c, bu_pyang t y l = Ok mods -> In c mods -> exists m text, In m l /\ assoc String.eqb m y = Some text /\ c = bu_mod t m text.
Proof.
  intros t y l mods c E I. injection E as <-. apply in_flat_map in I. destruct I as (m & M & I).
  destruct (assoc String.eqb m y) as [text |] eqn:A; [| destruct I]. destruct I as [<- | []]. exists m, text. auto.
Qed.
Lemma bu_closed : forall t y l mods, bu_pyang t y l = Ok mods -> Closed mods.
Proof.
  intros t y l mods E c x n C X R. destruct (bu_in t y l mods c E C) as (m & text & _ & _ & ->).
  assert (N : n = m).
  { destruct X as [<- | []]. inversion R as [| i lo t0 ks m0 w a J | i lo t0 ks c m0 J Q]; subst; [reflexivity | destruct J |].
    destruct J as [<- | []]. inversion Q as [| i lo t0 ks m0 w a J | i lo t0 ks c m0 J P]; subst; [reflexivity | destruct J | destruct J]. }
  subst n. destruct (bu_name m) as (B1 & B2). exists (bu_mod t m text), ("urn:" ++ m)%string. split; [exact C |]. split; [exact B1 |]. split; [exact B2 | reflexivity].
Qed.
Lemma bu_without : forall t y l mods, ~ UsesIdentities t -> bu_pyang t y l = Ok mods -> WithoutIdentities mods.
Proof.
  intros t y l mods U E c x C X H. destruct (bu_in t y l mods c E C) as (m & text & _ & _ & ->).
  destruct X as [<- | []]. inversion H as [| i lo t0 ks c J Q]; subst. destruct J as [<- | []].
  inversion Q as [i lo t0 ks V | i lo t0 ks c J P]; subst; [exact (U V) | destruct J].
Qed.
Lemma bu_color : ~ UsesIdentities ty_ref.
Proof. intro U. inversion U as [| a d t en b p ms m V | a d td en b p ms m t J V]; subst; [| destruct J]. inversion V as [| | a d td en b p ms m t J W]; subst. destruct J. Qed.

(** The files are compiled, u first; another process is killed while it writes the file of u;
    then u is compiled again. *)
Definition bu_story : list event := [ECompile ["u"; "t"] "u"; EKilled "u"; ECompile ["u"; "t"] "u"].
Lemma bu_two : forall l, Lists l ["t"; "u"] -> l = ["t"; "u"] \/ l = ["u"; "t"].
Proof.
  intros l (N & S). destruct l as [| a l]; [exfalso; apply (proj2 (S "t")); left; reflexivity |].
  assert (A : a = "t" \/ a = "u") by (destruct (proj1 (S a) (or_introl eq_refl)) as [<- | [<- | []]]; auto).
  inversion N as [| a' l' NI ND]; subst. destruct l as [| b l].
  - exfalso. destruct A as [-> | ->]; [assert (X : In "u" ["t"]) by (apply S; right; left; reflexivity) | assert (X : In "t" ["u"]) by (apply S; left; reflexivity)]; destruct X as [X | []]; discriminate.
  - assert (B : b = "t" \/ b = "u") by (destruct (proj1 (S b) (or_intror (or_introl eq_refl))) as [<- | [<- | []]]; auto).
    assert (L : l = []).
    { destruct l as [| c l]; [reflexivity | exfalso]. assert (C : c = "t" \/ c = "u") by (destruct (proj1 (S c) (or_intror (or_intror (or_introl eq_refl)))) as [<- | [<- | []]]; auto).
      inversion ND as [| b' l' NI2 ND2]; subst. destruct A as [-> | ->], B as [-> | ->], C as [-> | ->];
        try (apply NI; left; reflexivity); try (apply NI; right; left; reflexivity); try (apply NI2; left; reflexivity). }
    subst l. destruct A as [-> | ->], B as [-> | ->]; auto; exfalso; apply NI; left; reflexivity.
Qed.
Lemma bu_needs : forall m, m = "t" \/ m = "u" -> forall x, In x (required (bu_load bu_files) m) <-> In x ["t"; "u"].
Proof. intros m [-> | ->] x; vm_compute; tauto. Qed.
Lemma bu_order : forall m l, m = "t" \/ m = "u" -> l = ["t"; "u"] \/ l = ["u"; "t"] -> Lists l (required (bu_load bu_files) m).
Proof.
  intros m l M L. split; [destruct L as [-> | ->]; (constructor; [intros [H | []]; discriminate | constructor; [intros [] | constructor]]) |].
  intro x. rewrite (bu_needs m M x). destruct L as [-> | ->]; simpl; tauto.
Qed.
Lemma bu_orders : forall m l, m = "t" \/ m = "u" -> Lists l (required (bu_load bu_files) m) -> l = ["t"; "u"] \/ l = ["u"; "t"].
Proof. intros m l M (N & S). apply bu_two. split; [exact N |]. intro x. rewrite S. apply bu_needs. exact M. Qed.

Definition bu_life t := history (bu_pyang t) bu_load bu_files.
Lemma bu_alive : Life (bu_pyang ty_ref) bu_load (bu_life ty_ref bu_story).
Proof.
  unfold bu_life, history, bu_story. cbn [fold_left].
  apply li_compile; [| discriminate |].
  - apply li_killed. apply li_compile; [apply li_new | discriminate | apply bu_order; auto].
  - match goal with |- Lists _ (required ?d _) => replace d with (bu_load bu_files) by (vm_compute; reflexivity) end. apply bu_order; auto.
Qed.

(** With identities: t is compiled, then u *)
Definition bu_values (r : res xml) : option string :=
  match r with
  | Ok t => match filter (fun c => negb (String.eqb (xtag c) "namespace")) (xkids t) with
            | Elem _ _ _ (Elem _ _ a _ :: _) :: _ => assoc String.eqb "values" a
            | _ => None
            end
  | Err _ => None
  end.
Lemma bu_alive_twice : Life (bu_pyang ty_kind) bu_load (bu_life ty_kind [ECompile ["t"; "u"] "t"]).
Proof. unfold bu_life, history. cbn [fold_left]. apply li_compile; [apply li_new | discriminate | apply bu_order; auto]. Qed.
Lemma identities_twice : exists pyang load st order m, (forall y l mods, pyang y l = Ok mods -> Closed mods) /\
  Life pyang load st /\ Lists order (required (k_deps (fst st)) m) /\ m <> deps_name /\
  bu_values (fst (compile pyang order m st)) = Some "up:dog|up:cat|up:dog|up:cat" /\
  ~ Possible pyang load (d_yang (snd st)) m (fst (compile pyang order m st)).
Proof.
  exists (bu_pyang ty_kind), bu_load, (bu_life ty_kind [ECompile ["t"; "u"] "t"]), ["t"; "u"], "u".
  split; [exact (bu_closed ty_kind) |]. split; [exact bu_alive_twice |].
  split; [replace (k_deps (fst (bu_life ty_kind [ECompile ["t"; "u"] "t"]))) with (bu_load bu_files) by (vm_compute; reflexivity); apply bu_order; auto |].
  split; [discriminate |]. split; [vm_compute; reflexivity |]. intros (order & L & E).
  replace (d_yang (snd (bu_life ty_kind [ECompile ["t"; "u"] "t"]))) with bu_files in L, E by (vm_compute; reflexivity).
  apply (bu_orders "u" order (or_intror eq_refl)) in L. destruct L as [-> | ->]; vm_compute in E; discriminate.
Qed.
Lemma edit_lost : exists pyang load y order m text, (forall y l mods, pyang y l = Ok mods -> Closed mods /\ WithoutIdentities mods) /\
  let st := history pyang load y [ECompile order m; EEdit m text; EStart] in
  Lists order (required (k_deps (fst st)) m) /\ m <> deps_name /\
  ~ Possible pyang load (d_yang (snd st)) m (fst (compile pyang order m st)).
Proof.
  exists (bu_pyang ty_ref), bu_load, bu_files, ["t"; "u"], "u", "name".
  split; [intros y l mods E; split; [exact (bu_closed ty_ref y l mods E) | exact (bu_without ty_ref y l mods bu_color E)] |].
  intro st. split; [replace (k_deps (fst st)) with (bu_load bu_files) by (vm_compute; reflexivity); apply bu_order; auto |].
  split; [discriminate |]. intros (order & L & E). replace (d_yang (snd st)) with [("t", "size"); ("u", "name")] in L, E by (vm_compute; reflexivity).
  change (bu_load [("t", "size"); ("u", "name")]) with (bu_load bu_files) in L.
  apply (bu_orders "u" order (or_intror eq_refl)) in L. destruct L as [-> | ->]; vm_compute in E; discriminate.
Qed.
Lemma never_compiled : forall pyang load y order,
  fst (compile pyang order "dependencies" (start load (Folder y []))) = Ok (Elem "modules" None [] (load y)).
Proof. reflexivity. Qed.

(** pyang is asked for modules that have a file, and for no others. *)
Theorem only_files : forall pyang pyang' order m k f,
  (forall l, (forall n, In n l -> In n (map fst (d_yang f))) -> pyang (d_yang f) l = pyang' (d_yang f) l) ->
  compile pyang order m (k, f) = compile pyang' order m (k, f).
Proof.
  intros pyang pyang' order m k f H. unfold compile.
  rewrite (H (filter (fun n => mem String.eqb n (map fst (d_yang f))) order)); auto.
  intros n Hn. apply filter_In in Hn. destruct Hn as (_ & Hn). apply (mem_In String.eqb string_eqb_ok). exact Hn.
Qed.

(** A pyang that refuses to read a module without a file *)
Definition bu_strict (y : list (string * string)) (l : list string) : res (list cmod) :=
  if forallb (fun n => mem String.eqb n (map fst y)) l then bu_pyang ty_kind y l else Err ValueError.
Lemma only_files_case : exists pyang pyang' f l, pyang (d_yang f) l <> pyang' (d_yang f) l /\
  (forall l, (forall n, In n l -> In n (map fst (d_yang f))) -> pyang (d_yang f) l = pyang' (d_yang f) l) /\
  fst (compile pyang ["u"; "v"; "t"] "u" (start bu_load f)) = fst (compile pyang ["u"; "t"] "u" (start bu_load f)).
Proof.
  exists bu_strict, (bu_pyang ty_kind), (Folder bu_files []), ["v"]. split; [vm_compute; discriminate |]. split; [| vm_compute; reflexivity].
  intros l H. unfold bu_strict. assert (F : forallb (fun n => mem String.eqb n (map fst (d_yang (Folder bu_files [])))) l = true).
  { apply forallb_forall. intros n Hn. apply (mem_In String.eqb string_eqb_ok). auto. }
  rewrite F. reflexivity.
Qed.
