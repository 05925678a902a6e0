(** C74, C75: the record of dependencies between modules. *)
From Coq Require Import String Ascii List Bool Arith Permutation.
From Verif Require Import Base XmlM DepictM DepsM DepsSpec DepsNodeSpec DepsP DepsNodeP DepsRaceP DepsPropsP.
Import ListNotations.
Open Scope string_scope.
Open Scope list_scope.

(** Whatever modules are recorded in whatever order, there is one node for each name. *)
Theorem C74_one_entry : forall ss deps, Recorded ss deps -> NoDup (gets "id" deps) /\ forall n, In n (gets "id" deps) <-> In n (map s_arg ss).
Proof. exact recorded_ids. Qed.
Print Assumptions C74_one_entry.
Example C74_one_entry_case : Recorded de_all de_deps /\ gets "id" de_deps = ["types"; "acl"; "acl-sub"; "hid"].
Proof. split; [exact de_recorded | vm_compute; reflexivity]. Qed.

(** The imports told of a module are those of the statement recorded last under its name. *)
Theorem C74_imports : forall ss deps, Recorded ss deps -> (forall s, In s ss -> Complete s) ->
  forall m i, In i (fst (get_dependencies deps m)) <-> exists s, Latest ss s /\ s_arg s = m /\ Imports s i.
Proof. exact deps_imports. Qed.
Print Assumptions C74_imports.
Example C74_imports_case : Recorded de_all de_deps /\ (forall s, In s de_all -> Complete s) /\ Latest de_all de_acl /\ fst (get_dependencies de_deps "acl") = ["types"].
Proof. split; [exact de_recorded |]. split; [exact de_complete |]. split; [exact de_latest | vm_compute; reflexivity]. Qed.

(** The dependents told are those that import or include it. *)
Theorem C74_depends : forall ss deps, Recorded ss deps -> (forall s, In s ss -> Complete s) ->
  forall m d, In d (snd (get_dependencies deps m)) <-> exists s, Latest ss s /\ s_arg s = d /\ (Imports s m \/ Includes s m).
Proof. exact deps_depends. Qed.
Print Assumptions C74_depends.
Example C74_depends_case : snd (get_dependencies de_deps "types") = ["acl"; "acl-sub"] /\ snd (get_dependencies de_deps "acl-sub") = ["acl"].
Proof. split; vm_compute; reflexivity. Qed.

(** The modules that [compile] loads itself *)
Theorem C74_required : forall ss deps, Recorded ss deps -> (forall s, In s ss -> Complete s) -> forall m x, In x (required deps m) <->
  x = m \/ (exists s, Latest ss s /\ s_arg s = m /\ Imports s x) \/ (exists s, Latest ss s /\ s_arg s = x /\ (Imports s m \/ Includes s m)).
Proof. exact deps_required. Qed.
Print Assumptions C74_required.
Example C74_required_case : required de_deps "types" = ["acl"; "acl-sub"; "types"] /\ required de_deps "acl" = ["types"; "acl"].
Proof. split; vm_compute; reflexivity. Qed.

(** Who imports a module is among its dependents; a dependent imports it or includes it. *)
Theorem C74_inverse : forall ss deps, Recorded ss deps -> (forall s, In s ss -> Complete s) -> forall a b,
  (In b (fst (get_dependencies deps a)) -> In a (snd (get_dependencies deps b))) /\
  (In a (snd (get_dependencies deps b)) -> In b (fst (get_dependencies deps a)) \/ exists s, Latest ss s /\ s_arg s = a /\ Includes s b).
Proof. exact inverse. Qed.
Print Assumptions C74_inverse.
Example C74_inverse_case : Recorded de_all de_deps /\ (forall s, In s de_all -> Complete s) /\
  In "types" (fst (get_dependencies de_deps "acl")) /\ In "acl" (snd (get_dependencies de_deps "acl-sub")) /\ ~ In "acl-sub" (fst (get_dependencies de_deps "acl")).
Proof. split; [exact de_recorded |]. split; [exact de_complete |]. vm_compute. intuition discriminate. Qed.

(** A module that includes a submodule is among its dependents, but the submodule is neither
    among the imports nor among the modules that [compile] loads itself. *)
Theorem C74_include_refuted : exists ss deps a b, Recorded ss deps /\ (forall s, In s ss -> Complete s) /\
  In a (snd (get_dependencies deps b)) /\ ~ In b (fst (get_dependencies deps a)) /\ ~ In b (required deps a).
Proof. exact include_left_out. Qed.
Print Assumptions C74_include_refuted.

(** The triples of names, prefixes and namespaces *)
Theorem C74_namespaces : forall ss deps, Recorded ss deps -> forall o p u, In (o, p, u) (namespaces deps) <->
  exists s, Latest ss s /\ o = Some (s_arg s) /\ s_kw s = Kw "module" /\ First "prefix" s p /\
    ((u = None /\ Lacks "namespace" s) \/ exists v, u = Some v /\ First "namespace" s v).
Proof. exact deps_namespaces. Qed.
Print Assumptions C74_namespaces.
Example C74_namespaces_case : namespaces de_deps = [(Some "types", "t", Some "urn:types"); (Some "acl", "acl", Some "urn:acl"); (Some "hid", "hid", Some "urn:hid")].
Proof. vm_compute. reflexivity. Qed.

(** A module is marked as one with roots just if it has data that is not hidden. *)
Theorem C74_roots : forall ss deps, Recorded ss deps -> (forall s, In s ss -> Complete s) -> forall s, Latest ss s ->
  exists x, In x deps /\ get_attr "id" x = Some (s_arg s) /\ ((exists k, In k (xkids x) /\ xtag k = "roots") <-> Visible s).
Proof. exact deps_roots. Qed.
Print Assumptions C74_roots.
Example C74_roots_case : map (fun x => (get_attr "id" x, existsb (fun k => String.eqb (xtag k) "roots") (xkids x))) de_deps =
  [(Some "types", false); (Some "acl", true); (Some "acl-sub", false); (Some "hid", false)].
Proof. vm_compute. reflexivity. Qed.

(** Everything that the record has: the entries are those of the statements recorded last under
    their names, each with exactly what its statement says. *)
Theorem C74_records : forall ss deps, Recorded ss deps -> (forall s, In s ss -> Complete s /\ exists k, s_kw s = Kw k) ->
  (forall x, In x deps -> exists s, Latest ss s /\ Record_of s x) /\ (forall s, Latest ss s -> exists x, In x deps /\ Record_of s x).
Proof. exact deps_records. Qed.
Print Assumptions C74_records.
Example C74_records_case : Recorded de_all de_deps /\ (forall s, In s de_all -> Complete s /\ exists k, s_kw s = Kw k) /\
  In (Elem "module" None [("id", "acl-sub"); ("type", "submodule")]
        [Elem "belongs-to" None [("module", "acl")] []; Elem "imports" None [] [Elem "import" None [("module", "types"); ("prefix", "t")] []]]) de_deps.
Proof.
  split; [exact de_recorded |]. split; [| vm_compute; auto]. intros s I. split; [exact (de_complete s I) |].
  cbn in I. repeat (destruct I as [<- | I]; [eexists; reflexivity |]). destruct I.
Qed.

(** An update gives the modules imported and included, or fails just if an import has no prefix. *)
Theorem C74_update : forall deps s, (Complete s -> exists l, snd (update_dependencies deps s) = Ok l /\ forall n, In n l <-> Imports s n \/ Includes s n) /\
  (~ Complete s -> snd (update_dependencies deps s) = Err AttributeError).
Proof. exact deps_update. Qed.
Print Assumptions C74_update.
Example C74_update_case : Complete de_acl /\ snd (update_dependencies de_deps de_acl) = Ok ["acl-sub"; "types"] /\ ~ Complete de_bad.
Proof. split; [apply de_complete; cbn; auto |]. split; [vm_compute; reflexivity | exact de_incomplete]. Qed.

(** C75: any number of threads, taking modules of different names from a queue and recording
    them in a tree made before, in any interleaving: none fails, and when all are done the tree
    has, up to the order of its nodes, what one thread alone would have recorded. *)
Theorem C75_threads : forall all n g ws, NoDup (map s_arg all) -> steps (begin all, repeat TIdle n) (g, ws) ->
  ~ In TDied ws /\ (Finished g ws -> exists deps, Recorded all deps /\ Permutation (deps_of g) deps).
Proof. exact race_free. Qed.
Print Assumptions C75_threads.
Example C75_threads_case : NoDup (map s_arg [de_types; de_acl; de_sub; de_hid]) /\
  exists g ws, steps (begin [de_types; de_acl; de_sub; de_hid], repeat TIdle 2) (g, ws) /\ Finished g ws /\ gets "id" (deps_of g) = ["acl"; "types"; "hid"; "acl-sub"].
Proof.
  split; [exact de_distinct |]. eexists. eexists. split; [apply (goes_steps [0; 1; 1; 1; 0; 1; 0; 1; 0; 0; 1; 0; 0; 1; 1; 1; 1; 0; 0; 1; 0; 0; 1; 0]); vm_compute; reflexivity |].
  split; [split; [reflexivity |]; intros w [<- | [<- | []]]; reflexivity | vm_compute; reflexivity].
Qed.

(** Every run ends after at most six steps for each module, and only when all is done. *)
Theorem C75_ends : forall all n k g ws, NoDup (map s_arg all) -> Run k (begin all, repeat TIdle n) (g, ws) ->
  k <= 6 * List.length all /\ (0 < n -> (forall c, ~ step (g, ws) c) -> Finished g ws).
Proof. exact race_ends. Qed.
Print Assumptions C75_ends.
(** Twenty-four steps for four modules, after which no thread can go on *)
Example C75_ends_case : exists g ws, goes [0; 1; 1; 1; 0; 1; 0; 1; 0; 0; 1; 0; 0; 1; 1; 1; 1; 0; 0; 1; 0; 0; 1; 0] (begin [de_types; de_acl; de_sub; de_hid], repeat TIdle 2) = Some (g, ws) /\
  goes [0] (g, ws) = None /\ goes [1] (g, ws) = None.
Proof. eexists. eexists. split; [vm_compute; reflexivity |]. split; vm_compute; reflexivity. Qed.

(** The order of the nodes makes no difference to what is told. *)
Theorem C75_order : forall deps deps', Permutation deps deps' -> forall m,
  Permutation (fst (get_dependencies deps m)) (fst (get_dependencies deps' m)) /\ Permutation (snd (get_dependencies deps m)) (snd (get_dependencies deps' m)) /\
  Permutation (namespaces deps) (namespaces deps').
Proof. exact order_free. Qed.
Print Assumptions C75_order.
Example C75_order_case : Permutation de_deps (rev de_deps) /\ de_deps <> rev de_deps /\ snd (get_dependencies (rev de_deps) "types") = ["acl-sub"; "acl"].
Proof. split; [apply Permutation_rev |]. split; [vm_compute; discriminate | vm_compute; reflexivity]. Qed.

(** When no tree was made before, as in [load_context], two threads may make one each: what the
    first has recorded is lost, though all is done and nothing has failed. *)
Theorem C75_lost_refuted : forall a b, exists g ws, steps (begin_none [a; b], [TIdle; TIdle]) (g, ws) /\ Finished g ws /\ deps_of g = [fst (module_node b)].
Proof. exact entry_lost. Qed.
Print Assumptions C75_lost_refuted.

(** Three files with the same module: a thread may die while removing the old node, because the
    other one has removed it. *)
Theorem C75_dies_refuted : forall a b c, s_arg a = s_arg b -> s_arg b = s_arg c ->
  exists g ws, steps (begin_none [a; b; c], [TIdle; TIdle]) (g, ws) /\ In TDied ws.
Proof. exact thread_dies. Qed.
Print Assumptions C75_dies_refuted.

(** Two files with the same module: there may be two nodes for it. *)
Theorem C75_twice_refuted : forall a b, s_arg a = s_arg b -> exists g ws, steps (begin [a; b], [TIdle; TIdle]) (g, ws) /\ Finished g ws /\
  gets "id" (deps_of g) = [s_arg a; s_arg a].
Proof. exact entry_twice. Qed.
Print Assumptions C75_twice_refuted.
