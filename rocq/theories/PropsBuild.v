(** Property C80: a compiled model depends on the YANG files only. *)
From Coq Require Import String List Bool.
From Verif Require Import Base XmlM CompileM DepictM TypeM TypePropsP DepsM BuildM BuildSpec BuildP BuildPropsP.
Import ListNotations.
Open Scope string_scope.
Open Scope list_scope.

(** Whatever has happened to the folder (compilations of any modules in any order, new
    compilers, downloads, processes killed while they wrote), the answer for a module is one
    that a new compiler gives on the bare files, for some order of the required modules. *)
Theorem C80_history_partial : forall pyang load, (forall y l mods, pyang y l = Ok mods -> Closed mods /\ WithoutIdentities mods) ->
  forall st order m, Life pyang load st -> m <> deps_name -> Lists order (required (k_deps (fst st)) m) ->
  Possible pyang load (d_yang (snd st)) m (fst (compile pyang order m st)).
Proof. exact history_free. Qed.
Print Assumptions C80_history_partial.

Example C80_case :
  (forall y l mods, bu_pyang ty_ref y l = Ok mods -> Closed mods /\ WithoutIdentities mods) /\
  Life (bu_pyang ty_ref) bu_load (bu_life ty_ref bu_story) /\
  Lists ["t"; "u"] (required (k_deps (fst (bu_life ty_ref bu_story))) "u") /\
  bu_values (fst (compile (bu_pyang ty_ref) ["t"; "u"] "u" (bu_life ty_ref bu_story))) = Some "red|blue|dark green".
Proof.
  split; [intros y l mods E; split; [exact (bu_closed ty_ref y l mods E) | exact (bu_without ty_ref y l mods bu_color E)] |].
  split; [exact bu_alive |]. split; [| vm_compute; reflexivity].
  replace (k_deps (fst (bu_life ty_ref bu_story))) with (bu_load bu_files) by (vm_compute; reflexivity). apply bu_order; auto.
Qed.

(** If every call is by a compiler of its own, then with identities too, and for every context. *)
Theorem C80_alone_partial : forall pyang load f order m, Alone pyang load f -> m <> deps_name ->
  Lists order (required (k_deps (fst (start load f))) m) ->
  Possible pyang load (d_yang f) m (fst (compile pyang order m (start load f))).
Proof. exact alone_free. Qed.
Print Assumptions C80_alone_partial.

Example C80_alone_case : let f := snd (snd (compile (bu_pyang ty_kind) ["t"; "u"] "t" (start bu_load (Folder bu_files [])))) in
  Alone (bu_pyang ty_kind) bu_load f /\ Lists ["t"; "u"] (required (k_deps (fst (start bu_load f))) "u") /\
  bu_values (fst (compile (bu_pyang ty_kind) ["t"; "u"] "u" (start bu_load f))) = Some "up:dog|up:cat".
Proof.
  intro f. split; [apply al_compile; [apply al_new | discriminate | apply bu_order; auto] |]. split; [| vm_compute; reflexivity].
  replace (k_deps (fst (start bu_load f))) with (bu_load bu_files) by (vm_compute; reflexivity). apply bu_order; auto.
Qed.

(** A tree that was given out is given out again, by whichever compiler and in whichever
    order, until the folder is emptied or the file of the module is broken. *)
Theorem C80_again : forall pyang load st order m t l order', fst (compile pyang order m st) = Ok t -> m <> deps_name ->
  (forall e, In e l -> match e with EDownload _ _ => False | EKilled m' => m' <> m | _ => True end) ->
  fst (compile pyang order' m (fold_left (fun st e => happen pyang load e st) l (snd (compile pyang order m st)))) = Ok t.
Proof. exact given_again. Qed.
Print Assumptions C80_again.

Example C80_again_case : exists t, fst (compile (bu_pyang ty_kind) ["t"; "u"] "u" (bu_life ty_kind [])) = Ok t /\
  forall e, In e [ECompile ["u"; "t"] "t"; EKilled "t"; EStart; EEdit "u" "name"] ->
  match e with EDownload _ _ => False | EKilled m' => m' <> "u" | _ => True end.
Proof. eexists. split; [vm_compute; reflexivity |]. intros e [<- | [<- | [<- | [<- | []]]]]; (exact I || discriminate). Qed.

(** With identities the statement is false: a compiler that has compiled another module before
    gives values twice, which no new compiler does. *)
Theorem C80_identities_refuted : exists pyang load st order m, (forall y l mods, pyang y l = Ok mods -> Closed mods) /\
  Life pyang load st /\ Lists order (required (k_deps (fst st)) m) /\ m <> deps_name /\
  bu_values (fst (compile pyang order m st)) = Some "up:dog|up:cat|up:dog|up:cat" /\
  ~ Possible pyang load (d_yang (snd st)) m (fst (compile pyang order m st)).
Proof. exact identities_twice. Qed.
Print Assumptions C80_identities_refuted.

(** A YANG file that is changed by hand is not read again, not by a new compiler either. *)
Theorem C80_edit_refuted : exists pyang load y order m text, (forall y l mods, pyang y l = Ok mods -> Closed mods /\ WithoutIdentities mods) /\
  let st := history pyang load y [ECompile order m; EEdit m text; EStart] in
  Lists order (required (k_deps (fst st)) m) /\ m <> deps_name /\
  ~ Possible pyang load (d_yang (snd st)) m (fst (compile pyang order m st)).
Proof. exact edit_lost. Qed.
Print Assumptions C80_edit_refuted.

(** A module of the name dependencies is never compiled: its answer is the record of
    dependencies, which lies where its own file would be. *)
Theorem C80_dependencies_refuted : forall pyang load y order,
  fst (compile pyang order "dependencies" (start load (Folder y []))) = Ok (Elem "modules" None [] (load y)).
Proof. exact never_compiled. Qed.
Print Assumptions C80_dependencies_refuted.

(** Required modules that have no file are left out: pyang is never asked for them, so what it
    would say about them does not matter. *)
Theorem C80_only_files : forall pyang pyang' order m k f,
  (forall l, (forall n, In n l -> In n (map fst (d_yang f))) -> pyang (d_yang f) l = pyang' (d_yang f) l) ->
  compile pyang order m (k, f) = compile pyang' order m (k, f).
Proof. exact only_files. Qed.
Print Assumptions C80_only_files.

Example C80_only_files_case : exists pyang pyang' f l, pyang (d_yang f) l <> pyang' (d_yang f) l /\
  (forall l, (forall n, In n l -> In n (map fst (d_yang f))) -> pyang (d_yang f) l = pyang' (d_yang f) l) /\
  fst (compile pyang ["u"; "v"; "t"] "u" (start bu_load f)) = fst (compile pyang ["u"; "t"] "u" (start bu_load f)).
Proof. exact only_files_case. Qed.
